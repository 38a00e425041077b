(** From the primitives of a file to polygons. *)
From Coq Require Import List Arith Bool QArith Qabs ZArith String Lia Lqa.
From Verif Require Import IntervalModel IntervalProofs ManagerModel GeomModel GeomSpec GeomProofs.
From Verif Require Import BoardModel BoardSpec InfraModel InfraSpec.
Import ListNotations.
Open Scope Q_scope.

(** ** Smallest ranges *)

Lemma tight_sides b l :
  tight b l <-> tight1 (mk_box1 (xmin b) (xmax b)) (map px l) /\ tight1 (mk_box1 (ymin b) (ymax b)) (map py l).
Proof.
  unfold tight, tight1, in_box, in_range. cbn [lo hi]. split.
  - intros (A & (p1 & I1 & E1) & (p2 & I2 & E2) & (p3 & I3 & E3) & (p4 & I4 & E4)).
    repeat split; try (apply in_map_iff in H as (p & <- & I); now destruct (A p I)).
    + exists (px p1). split; [now apply in_map|assumption].
    + exists (px p2). split; [now apply in_map|assumption].
    + exists (py p3). split; [now apply in_map|assumption].
    + exists (py p4). split; [now apply in_map|assumption].
  - intros ((A & (x1 & I1 & E1) & (x2 & I2 & E2)) & (B & (y1 & J1 & F1) & (y2 & J2 & F2))).
    apply in_map_iff in I1 as (p1 & <- & I1). apply in_map_iff in I2 as (p2 & <- & I2).
    apply in_map_iff in J1 as (p3 & <- & J1). apply in_map_iff in J2 as (p4 & <- & J2).
    split; [|repeat split; eauto]. intros p I. split; [apply A|apply B]; now apply in_map.
Qed.

Lemma tight1_set z l l' : (forall x, In x l <-> In x l') -> tight1 z l -> tight1 z l'.
Proof.
  intros S (A & (x1 & I1 & E1) & (x2 & I2 & E2)). repeat split; try (apply A; now apply S).
  - exists x1. split; [now apply S|assumption].
  - exists x2. split; [now apply S|assumption].
Qed.

Lemma tight_set b l l' :
  (forall x, In x (map px l) <-> In x (map px l')) -> (forall y, In y (map py l) <-> In y (map py l')) ->
  tight b l -> tight b l'.
Proof. intros X Y T. apply tight_sides in T as [A B]. apply tight_sides. split; eapply tight1_set; eauto. Qed.

Lemma range_z_tight a b : tight1 (range_z a b) [a; b].
Proof.
  unfold tight1, range_z, in_range. cbn [lo hi In].
  destruct (Qltb a b) eqn:E; destruct (Qltb b a) eqn:F; try apply Qltb_lt in E; try apply Qltb_ge in E; try apply Qltb_lt in F; try apply Qltb_ge in F;
  repeat split; try (destruct H as [<-|[<-|[]]]; lra);
  try (exists a; split; [now left|lra]); try (exists b; split; [right; now left|lra]).
Qed.

Lemma tight1_order z l : tight1 z l -> lo z <= hi z.
Proof. intros (A & (x & I & E) & _). apply A in I. unfold in_range in I. lra. Qed.

Lemma tight1_trans z a b l : tight1 (mk_box1 a b) l -> tight1 z [a; b] -> tight1 z l.
Proof.
  intros T (A & (x1 & I1 & E1) & (x2 & I2 & E2)). pose proof (tight1_order _ _ T) as O. cbn [lo hi] in O.
  destruct T as (B & (y1 & J1 & F1) & (y2 & J2 & F2)). cbn [lo hi] in *. unfold in_range in *. cbn [lo hi] in *.
  pose proof (A a (or_introl eq_refl)) as Aa. pose proof (A b (or_intror (or_introl eq_refl))) as Ab.
  assert (L : lo z == a). { destruct I1 as [<-|[<-|[]]]; lra. }
  assert (H : hi z == b). { destruct I2 as [<-|[<-|[]]]; lra. }
  repeat split.
  - destruct (B x H0). lra.
  - destruct (B x H0). lra.
  - exists y1. split; [assumption|]. now rewrite L.
  - exists y2. split; [assumption|]. now rewrite H.
Qed.

Lemma tight1_unique z z' l : tight1 z l -> tight1 z' l -> lo z == lo z' /\ hi z == hi z'.
Proof.
  intros (A & (x1 & I1 & E1) & (x2 & I2 & E2)) (B & (y1 & J1 & F1) & (y2 & J2 & F2)). unfold in_range in *.
  pose proof (A _ J1). pose proof (A _ J2). pose proof (B _ I1). pose proof (B _ I2). split; lra.
Qed.

(** ** Adding shapes *)

Lemma drew_trans l l' f f' s s' s'' : drew l f s s' -> drew l' f' s' s'' -> drew (l ++ l') (fun ax => f ax ++ f' ax) s s''.
Proof.
  intros (A1 & A2 & A3 & A5 & A4) (B1 & B2 & B3 & B5 & B4). repeat split; try congruence; auto.
  - now rewrite B3, A3, <- app_assoc.
  - intros ax. now rewrite B4, A4, <- app_assoc.
Qed.
Lemma drew_lines l f f' s s' : (forall ax, f ax = f' ax) -> drew l f s s' -> drew l f' s s'.
Proof. intros E (A1 & A2 & A3 & A5 & A4). repeat split; try assumption. intros ax. now rewrite A4, E. Qed.
Lemma drew_refl s : drew [] no_line s s.
Proof. repeat split; intros; now rewrite ?app_nil_r. Qed.
Lemma drew_then l l' s s' s'' : drew l no_line s s' -> drew l' no_line s' s'' -> drew (l ++ l') no_line s s''.
Proof. intros A B. eapply drew_lines; [|eapply drew_trans; eassumption]. reflexivity. Qed.

Lemma add_fixed_on ax x s : drew [] (one_line ax x) s (add_fixed ax x s).
Proof.
  repeat split; cbn [add_fixed bd_board bd_params bd_fixed]; [now rewrite app_nil_r|auto|].
  intros ax'. destruct ax, ax'; cbn; now rewrite ?app_nil_r.
Qed.

Lemma add_shape_done p m pr z l s : l <> [] ->
  exists s' g, add_shape p (Some m) pr z l s = Done s' /\ drew [g] no_line s s'
    /\ g_plane g = p /\ made_of m pr g /\ g_z g = z /\ g_points g = l /\ tight (g_bounding g) l.
Proof.
  intros N. unfold add_shape. destruct (add_polygon p (Some m) pr z l (bd_board s)) as [b'| |] eqn:A.
  - assert (Bu : built (bd_board s) -> built b') by (intros H; eapply built_more; eassumption). revert A. unfold add_polygon.
    destruct (detect_bounding l) as [b| |] eqn:B; [|destruct l; [contradiction|discriminate]..].
    destruct (polygon_edges_done l N) as (es & ->). cbn [bind]. intros A. injection A as <-.
    eexists. eexists. split; [reflexivity|]. split.
    { repeat split; try exact Bu. intros ax. now rewrite app_nil_r. }
    apply detect_bounding_tight in B. cbn. unfold made_of. cbn. auto 10.
  - exfalso. revert A. unfold add_polygon. destruct (detect_bounding l) eqn:B; [|destruct l; [contradiction|discriminate]..].
    destruct (polygon_edges_done l N) as (es & ->). discriminate.
  - exfalso. revert A. unfold add_polygon. destruct (detect_bounding l) eqn:B; [|destruct l; [contradiction|discriminate]..].
    destruct (polygon_edges_done l N) as (es & ->). discriminate.
Qed.

Lemma add_box_done p m pr z a b s :
  exists s' g, add_box p (Some m) pr z a b s = Done s' /\ drew [g] no_line s s'
    /\ g_plane g = p /\ made_of m pr g /\ g_z g = z /\ g_points g = box_points a b
    /\ tight1 (mk_box1 (xmin (g_bounding g)) (xmax (g_bounding g))) [px a; px b]
    /\ tight1 (mk_box1 (ymin (g_bounding g)) (ymax (g_bounding g))) [py a; py b].
Proof.
  destruct (add_shape_done p m pr z (box_points a b) s) as (s' & g & E & D & P & M & Z & Q & T); [discriminate|].
  exists s', g. do 6 (split; [assumption|]). apply tight_sides in T as [X Y]. split.
  - eapply tight1_set; [|exact X]. cbn. intuition.
  - eapply tight1_set; [|exact Y]. cbn. intuition.
Qed.

(** Three shapes, one after the other, each on its own plane if it is wanted. *)
Definition one_shape (f : builder -> run builder) (P : polygon -> Prop) : Prop :=
  forall s, exists s' g, f s = Done s' /\ drew [g] no_line s s' /\ P g.

Lemma when_shape c f P : one_shape f P ->
  forall s, exists s' gs, when c f s = Done s' /\ drew gs no_line s s' /\ Forall2 (fun _ g => P g) (if c then [tt] else []) gs.
Proof.
  intros F s. destruct c; cbn [when].
  - destruct (F s) as (s' & g & E & D & H). exists s', [g]. repeat constructor; assumption || apply D.
  - exists s, []. split; [reflexivity|]. split; [apply drew_refl|constructor].
Qed.

Lemma Forall2_if {A B : Type} (R : A -> B -> Prop) (c : bool) (x : A) l :
  Forall2 (fun (_ : unit) y => R x y) (if c then [tt] else []) l -> Forall2 R (if c then [x] else []) l.
Proof.
  destruct c; intros H; inversion H as [|u y r r' Hy Hr]; subst; [|constructor].
  inversion Hr; subst. constructor; [assumption|constructor].
Qed.

Lemma two_shapes w p1 p2 f1 f2 (P : Plane -> polygon -> Prop) :
  one_shape f1 (P p1) -> one_shape f2 (P p2) ->
  forall s, exists s' gs,
    (let! s := when (wanted w p1) f1 s in when (wanted w p2) f2 s) = Done s'
    /\ drew gs no_line s s' /\ Forall2 P (filter (wanted w) [p1; p2]) gs.
Proof.
  intros F1 F2 s. destruct (when_shape (wanted w p1) _ _ F1 s) as (s1 & g1 & E1 & D1 & H1).
  destruct (when_shape (wanted w p2) _ _ F2 s1) as (s2 & g2 & E2 & D2 & H2).
  exists s2, (g1 ++ g2). rewrite E1. cbn [bind]. split; [assumption|]. split; [eapply drew_then; eassumption|].
  replace (filter (wanted w) [p1; p2]) with ((if wanted w p1 then [p1] else []) ++ (if wanted w p2 then [p2] else []))
    by (cbn; now destruct (wanted w p1), (wanted w p2)).
  apply Forall2_app; now apply Forall2_if.
Qed.

Lemma three_shapes w p1 p2 p3 f1 f2 f3 (P : Plane -> polygon -> Prop) :
  one_shape f1 (P p1) -> one_shape f2 (P p2) -> one_shape f3 (P p3) ->
  forall s, exists s' gs,
    (let! s := when (wanted w p1) f1 s in let! s := when (wanted w p2) f2 s in when (wanted w p3) f3 s) = Done s'
    /\ drew gs no_line s s' /\ Forall2 P (filter (wanted w) [p1; p2; p3]) gs.
Proof.
  intros F1 F2 F3 s. destruct (when_shape (wanted w p1) _ _ F1 s) as (s1 & g1 & E1 & D1 & H1).
  destruct (two_shapes w p2 p3 _ _ P F2 F3 s1) as (s2 & g2 & E2 & D2 & H2).
  exists s2, (g1 ++ g2). rewrite E1. cbn [bind]. split; [assumption|]. split; [eapply drew_then; eassumption|].
  replace (filter (wanted w) [p1; p2; p3]) with ((if wanted w p1 then [p1] else []) ++ filter (wanted w) [p2; p3])
    by (cbn; now destruct (wanted w p1), (wanted w p2), (wanted w p3)).
  apply Forall2_app; [now apply Forall2_if|assumption].
Qed.

(** ** Boxes *)

Lemma box_shape p m pr a b c d z (V : list point3) :
  (forall x, In x [px c; px d] <-> In x (map px (map (drawn p) V))) ->
  (forall x, In x [py c; py d] <-> In x (map py (map (drawn p) V))) ->
  (forall x, In x [a; b] <-> In x (map (depth p) V)) -> z = range_z a b ->
  one_shape (add_box p (Some m) pr z c d) (fun g => shows p V g /\ made_of m pr g /\ g_points g = box_points c d).
Proof.
  intros X Y Z -> s. destruct (add_box_done p m pr (range_z a b) c d s) as (s' & g & E & D & P & M & Q & Pts & Tx & Ty).
  exists s', g. split; [assumption|]. split; [assumption|]. split; [|now split]. split; [assumption|]. split.
  - apply tight_sides. split; eapply tight1_set; eassumption.
  - rewrite Q. eapply tight1_set; [exact Z|apply range_z_tight].
Qed.

Lemma box3_shapes pp m pr a b s :
  exists s' gs, add_box3 pp m pr a b s = Done s' /\ drew gs no_line s s'
    /\ Forall2 (fun p g => shows p (corners a b) g /\ made_of m pr g /\ g_points g = box_points (drawn p a) (drawn p b))
         (wanted_planes pp) gs.
Proof.
  apply (three_shapes pp PYZ PZX PXY _ _ _ (fun p g => shows p (corners a b) g /\ made_of m pr g /\ g_points g = box_points (drawn p a) (drawn p b)));
  (eapply box_shape; [| | |reflexivity]; cbn; intuition).
Qed.

(** ** Other primitives *)

Lemma prism_shapes pp p m pr l z z' b s : tight b l ->
  exists s' gs,
    match p with
    | PYZ =>
        let! s := when (with_zx pp) (add_box PZX (Some m) pr (range_z (xmin b) (xmax b)) (mk_pt (ymin b) z) (mk_pt (ymax b) z')) s in
        when (with_xy pp) (add_box PXY (Some m) pr (range_z (ymin b) (ymax b)) (mk_pt z (xmin b)) (mk_pt z' (xmax b))) s
    | PZX =>
        let! s := when (with_xy pp) (add_box PXY (Some m) pr (range_z (xmin b) (xmax b)) (mk_pt (ymin b) z) (mk_pt (ymax b) z')) s in
        when (with_yz pp) (add_box PYZ (Some m) pr (range_z (ymin b) (ymax b)) (mk_pt z (xmin b)) (mk_pt z' (xmax b))) s
    | PXY =>
        let! s := when (with_yz pp) (add_box PYZ (Some m) pr (range_z (xmin b) (xmax b)) (mk_pt (ymin b) z) (mk_pt (ymax b) z')) s in
        when (with_zx pp) (add_box PZX (Some m) pr (range_z (ymin b) (ymax b)) (mk_pt z (xmin b)) (mk_pt z' (xmax b))) s
    end = Done s'
    /\ drew gs no_line s s' /\ Forall2 (fun q g => shows q (prism p l z z') g /\ made_of m pr g) (filter (wanted pp) (others p)) gs.
Proof.
  intros T. apply tight_sides in T as [Tx Ty].
  assert (L : exists v, In v l). { destruct Tx as (_ & (x & I & _) & _). apply in_map_iff in I as (v & _ & I). now exists v. }
  assert (One : forall q c d za zb,
     (forall x, tight1 x [px c; px d] -> tight1 x (map px (map (drawn q) (prism p l z z')))) ->
     (forall x, tight1 x [py c; py d] -> tight1 x (map py (map (drawn q) (prism p l z z')))) ->
     (forall x, tight1 x [za; zb] -> tight1 x (map (depth q) (prism p l z z'))) ->
     one_shape (add_box q (Some m) pr (range_z za zb) c d) (fun g => shows q (prism p l z z') g /\ made_of m pr g)).
  { intros q c d za zb X Y Z s0. destruct (add_box_done q m pr (range_z za zb) c d s0) as (s' & g & E & D & P & M & Q & Pts & Bx & By).
    exists s', g. split; [assumption|]. split; [assumption|]. split; [|assumption]. split; [assumption|]. split.
    - apply tight_sides. split; [now apply X|now apply Y].
    - rewrite Q. apply Z, range_z_tight. }
  assert (Sx : forall f : point3 -> Q, (forall v t, f (raised p t v) = px v) -> forall x, tight1 x [xmin b; xmax b] -> tight1 x (map f (prism p l z z'))).
  { intros f F x Hx. eapply tight1_set; [|eapply tight1_trans; [exact Tx|exact Hx]]. intros y. unfold prism.
    rewrite map_app, !map_map, in_app_iff. rewrite (map_ext (fun v => f (raised p z v)) px) by (intros; apply F). rewrite (map_ext (fun v => f (raised p z' v)) px) by (intros; apply F). tauto. }
  assert (Sy : forall f : point3 -> Q, (forall v t, f (raised p t v) = py v) -> forall x, tight1 x [ymin b; ymax b] -> tight1 x (map f (prism p l z z'))).
  { intros f F x Hx. eapply tight1_set; [|eapply tight1_trans; [exact Ty|exact Hx]]. intros y. unfold prism.
    rewrite map_app, !map_map, in_app_iff. rewrite (map_ext (fun v => f (raised p z v)) py) by (intros; apply F). rewrite (map_ext (fun v => f (raised p z' v)) py) by (intros; apply F). tauto. }
  assert (Sz : forall f : point3 -> Q, (forall v t, f (raised p t v) = t) -> forall x, tight1 x [z; z'] -> tight1 x (map f (prism p l z z'))).
  { intros f F x Hx. eapply tight1_set; [|exact Hx]. intros y. unfold prism. rewrite map_app, !map_map, in_app_iff, !in_map_iff. cbn. split.
    - destruct L as (v & L). intros [<-|[<-|[]]]; [left|right]; exists v; (split; [apply F|assumption]).
    - intros [(v & <- & _)|(v & <- & _)]; rewrite F; auto. }
  destruct p; cbn [others].
  1: apply (two_shapes pp PZX PXY _ _ (fun q g => shows q (prism PYZ l z z') g /\ made_of m pr g)).
  3: apply (two_shapes pp PXY PYZ _ _ (fun q g => shows q (prism PZX l z z') g /\ made_of m pr g)).
  5: apply (two_shapes pp PYZ PZX _ _ (fun q g => shows q (prism PXY l z z') g /\ made_of m pr g)).
  all: apply One; intros x Hx; rewrite ?map_map;
    first [apply Sx; [reflexivity|exact Hx]|apply Sy; [reflexivity|exact Hx]|apply Sz; [reflexivity|exact Hx]].
Qed.

Lemma linpoly_shapes uint_max pp n m pr p s :
  let elevation := as_double "Elevation" 0 n in
  let len := as_double "Length" 0 n in
  let l := map vertex_of (named "Vertex" (children_of n)) in
  to_plane (as_uint uint_max "NormDir" 0 n) = Some p -> l <> [] ->
  exists s' g gs, parse_linpoly uint_max pp n m pr s = Done s' /\ drew (g :: gs) no_line s s'
    /\ g_points g = l /\ shows p (prism p l elevation (elevation + len)) g /\ made_of m pr g
    /\ Forall2 (fun q g => shows q (prism p l elevation (elevation + len)) g /\ made_of m pr g)
         (if Qeq_bool len 0 then [] else filter (wanted pp) (others p)) gs.
Proof.
  intros e len l P N. unfold parse_linpoly. rewrite P. fold e len l.
  destruct (detect_bounding l) as [b| |] eqn:B; [|destruct l; [contradiction|discriminate]..].
  apply detect_bounding_tight in B. cbn [bind].
  destruct (add_shape_done p m pr (range_z e (e + len)) l s N) as (s1 & g & E & D & GP & M & Z & Pts & T). rewrite E. cbn [bind].
  assert (S : shows p (prism p l e (e + len)) g).
  { split; [assumption|]. split.
    - rewrite tight_sides in T |- *. destruct T as [Tx Ty].
      split; (eapply tight1_set; [|first [exact Tx|exact Ty]]); intros x; unfold prism; rewrite map_app, !map_map, map_app, !map_map, in_app_iff;
      destruct p; cbn [drawn raised x3 y3 z3 px py]; tauto.
    - rewrite Z. eapply tight1_set; [|apply range_z_tight]. intros x. unfold prism. rewrite map_app, !map_map, in_app_iff.
      assert (Dp : forall v t, depth p (raised p t v) = t) by (intros; now destruct p).
      rewrite !in_map_iff. split.
      + destruct l as [|v l']; [contradiction|]. intros [<-|[<-|[]]]; [left|right]; exists v; (split; [apply Dp|now left]).
      + intros [(v & <- & _)|(v & <- & _)]; rewrite Dp; cbn; auto. }
  destruct (Qeq_bool len 0).
  - exists s1, g, []. do 5 (split; [reflexivity || assumption|]). constructor.
  - destruct (prism_shapes pp p m pr l e (e + len) b s1 B) as (s2 & gs & E2 & D2 & F2).
    exists s2, g, gs. rewrite <- E2. split; [now destruct p|]. split; [eapply (drew_then [g]); eassumption|]. auto.
Qed.

Lemma polygon_shape uint_max n m pr p s :
  let elevation := as_double "Elevation" 0 n in
  let l := map vertex_of (named "Vertex" (children_of n)) in
  to_plane (as_uint uint_max "NormDir" 0 n) = Some p -> l <> [] ->
  exists s' g, parse_polygon uint_max n m pr s = Done s' /\ drew [g] (one_line (across p) elevation) s s'
    /\ g_points g = l /\ shows p (map (raised p elevation) l) g /\ made_of m pr g.
Proof.
  intros e l P N. unfold parse_polygon. rewrite P. fold e l.
  assert (A : to_axis (as_uint uint_max "NormDir" 0 n) = Some (across p)).
  { revert P. destruct (as_uint uint_max "NormDir" 0 n) as [|[|[|k]]]; cbn; intros P; try discriminate; now injection P as <-. }
  rewrite A. destruct (detect_bounding l) as [b| |] eqn:B; [|destruct l; [contradiction|discriminate]..]. cbn [bind].
  destruct (add_shape_done p m pr (range_z e e) l s N) as (s1 & g & E & D & GP & M & Z & Pts & T). rewrite E. cbn [bind].
  eexists. exists g. split; [reflexivity|]. split.
  { eapply drew_lines; [|eapply (drew_trans [g] []); [exact D|apply add_fixed_on]]. reflexivity. }
  split; [assumption|]. split; [|assumption]. split; [assumption|]. split.
  - rewrite tight_sides in T |- *. destruct T as [Tx Ty].
    split; (eapply tight1_set; [|first [exact Tx|exact Ty]]); intros x; rewrite !map_map; destruct p; cbn [drawn raised x3 y3 z3 px py]; tauto.
  - rewrite Z. eapply tight1_set; [|apply range_z_tight]. intros x. rewrite !map_map.
    assert (Dp : forall v t, depth p (raised p t v) = t) by (intros; now destruct p). rewrite in_map_iff. split.
    + destruct l as [|v l']; [contradiction|]. intros [<-|[<-|[]]]; exists v; (split; [apply Dp|now left]).
    + intros (v & <- & _); rewrite Dp; cbn; auto.
Qed.

Lemma tight1_middle z a b l : tight1 z [a; b] -> (forall x, In x l -> between1 x a b) -> In a l -> In b l -> tight1 z l.
Proof.
  intros (A & (x1 & I1 & E1) & (x2 & I2 & E2)) B Ia Ib. unfold in_range in *.
  pose proof (A a (or_introl eq_refl)) as Aa. pose proof (A b (or_intror (or_introl eq_refl))) as Ab.
  split; [|split].
  - intros x I. destruct (B x I); unfold in_range; lra.
  - exists x1. split; [|assumption]. now destruct I1 as [<-|[<-|[]]].
  - exists x2. split; [|assumption]. now destruct I2 as [<-|[<-|[]]].
Qed.

Lemma sphere_shapes circle pp n m pr s : as_wide circle ->
  let c := point3_of (child "Center" n) in
  let r := as_double "Radius" 0 n in
  exists s' gs, parse_sphere circle pp n m pr s = Done s' /\ drew gs no_line s s'
    /\ Forall2 (fun p g => shows p (ball c r) g /\ made_of m pr g /\ g_points g = circle (drawn p c) r) (wanted_planes pp) gs.
Proof.
  intros W c r.
  assert (One : forall p a b, a = depth p c - r -> b = depth p c + r ->
     one_shape (add_shape p (Some m) pr (range_z a b) (circle (drawn p c) r))
       (fun g => shows p (ball c r) g /\ made_of m pr g /\ g_points g = circle (drawn p c) r)).
  { intros p a b -> -> s0. destruct (W (drawn p c) r) as [N T].
    destruct (add_shape_done p m pr (range_z (depth p c - r) (depth p c + r)) _ s0 N) as (s' & g & E & D & GP & M & Z & Pts & B).
    exists s', g. split; [assumption|]. split; [assumption|]. split; [|now split]. split; [assumption|]. split.
    - eapply tight_set; [| |apply T, B]; intros x; destruct p; cbn; intuition.
    - rewrite Z. eapply tight1_middle; [apply range_z_tight| | |]; destruct p; cbn; auto 10;
      intros x H; repeat destruct H as [<-|H]; try contradiction; unfold between1; destruct (Qlt_le_dec r 0); lra. }
  apply (three_shapes pp PYZ PZX PXY _ _ _ (fun p g => shows p (ball c r) g /\ made_of m pr g /\ g_points g = circle (drawn p c) r));
  now apply One.
Qed.

(** ** Curves *)

Lemma fold_least {A : Type} (f : A -> Q) l : forall x,
  let r := fold_left (fun best y => if Qltb (f y) (f best) then y else best) l x in
  In r (x :: l) /\ forall y, In y (x :: l) -> f r <= f y.
Proof.
  induction l as [|y l IH]; intros x; cbn [fold_left].
  - split; [now left|]. intros z [<-|[]]. lra.
  - destruct (IH (if Qltb (f y) (f x) then y else x)) as [I L]. split.
    + destruct (Qltb (f y) (f x)); destruct I as [<-|I]; cbn; auto.
    + intros z. specialize (L z). pose proof (IH (if Qltb (f y) (f x) then y else x)) as [_ L'].
      destruct (Qltb (f y) (f x)) eqn:E; [apply Qltb_lt in E|apply Qltb_ge in E].
      * intros [<-|[<-|I']]; [|apply L; now left|apply L; now right].
        specialize (L' y (or_introl eq_refl)). lra.
      * intros [<-|[<-|I']]; [apply L; now left| |apply L; now right].
        specialize (L' x (or_introl eq_refl)). lra.
Qed.

(** Both ends are the least value. *)
Lemma curve_range_least f l : l <> [] -> exists z v, curve_range f l = Done z /\ In v l
  /\ (forall w, In w l -> f v <= f w) /\ lo z == f v /\ hi z == f v.
Proof.
  destruct l as [|v l]; [congruence|]. intros _. unfold curve_range, ranges_min, ranges_max. cbn [bind].
  pose proof (fold_least f l v) as (I & L).
  set (r := fold_left _ l v) in *. clearbody r. exists (range_z (f r) (f r)), r.
  split; [reflexivity|]. split; [assumption|]. split; [assumption|].
  pose proof (range_z_tight (f r) (f r)) as (_ & (x & Ix & Ex) & (y & Iy & Ey)).
  destruct Ix as [<-|[<-|[]]], Iy as [<-|[<-|[]]]; split; now symmetry.
Qed.

Lemma curve_points_same (f : point3 -> point) l q : In q (curve_points f l) <-> In q (map f l).
Proof.
  unfold curve_points. rewrite in_app_iff, !in_map_iff. split; [|auto].
  intros [H|(v & E & I)]; [assumption|]. exists v. split; [assumption|].
  assert (T : forall (A : Type) (x : A) k, In x (tl k) -> In x k) by (intros A x [|y k] H; [assumption|now right]).
  now apply T, in_rev, T in I.
Qed.

Lemma curve_shapes size_max pp n m s :
  let l := map point3_of (named "Vertex" (children_of n)) in
  l <> [] ->
  exists s' gs, parse_curve size_max pp n m s = Done s' /\ drew gs no_line s s'
    /\ Forall2 (fun p g => g_plane g = p /\ tight (g_bounding g) (map (drawn p) l) /\ made_of m size_max g
         /\ g_points g = map (drawn p) (l ++ tl (rev (tl l)))
         /\ exists v, In v l /\ (forall w, In w l -> depth p v <= depth p w) /\ lo (g_z g) == depth p v /\ hi (g_z g) == depth p v)
         (wanted_planes pp) gs.
Proof.
  intros l N. unfold parse_curve. fold l.
  assert (One : forall p f h, (forall v, f v = depth p v) -> (forall v, h v = drawn p v) ->
     one_shape (fun s => let! z := curve_range f l in add_shape p (Some m) size_max z (curve_points h l) s)
       (fun g => g_plane g = p /\ tight (g_bounding g) (map (drawn p) l) /\ made_of m size_max g
         /\ g_points g = map (drawn p) (l ++ tl (rev (tl l)))
         /\ exists v, In v l /\ (forall w, In w l -> depth p v <= depth p w) /\ lo (g_z g) == depth p v /\ hi (g_z g) == depth p v)).
  { intros p f h F H s0. destruct (curve_range_least f l N) as (z & v & -> & I & L & Lo & Hi). cbn [bind].
    assert (N' : curve_points h l <> []). { unfold curve_points. destruct l; [congruence|discriminate]. }
    destruct (add_shape_done p m size_max z _ s0 N') as (s' & g & E & D & GP & M & Z & Pts & B).
    exists s', g. split; [assumption|]. split; [assumption|]. split; [assumption|]. split; [|split; [assumption|split]].
    - rewrite (map_ext (drawn p) h) by (intros; now rewrite H).
      eapply tight_set; [| |exact B]; intros x; rewrite !in_map_iff; (split; intros (q & Eq & Iq); exists q; (split; [assumption|]); now apply curve_points_same).
    - rewrite Pts. unfold curve_points. rewrite map_app. f_equal; apply map_ext; intros; apply H.
    - exists v. rewrite Z, <- !F. repeat split; auto. intros w Iw. rewrite <- !F. auto. }
  apply (three_shapes pp PYZ PZX PXY _ _ _ (fun p g => g_plane g = p /\ tight (g_bounding g) (map (drawn p) l) /\ made_of m size_max g
         /\ g_points g = map (drawn p) (l ++ tl (rev (tl l)))
         /\ exists v, In v l /\ (forall w, In w l -> depth p v <= depth p w) /\ lo (g_z g) == depth p v /\ hi (g_z g) == depth p v));
  now apply One.
Qed.

(** ** Cylinders *)

Lemma tight1_ends z a b a' b' : a == a' -> b == b' -> tight1 z [a; b] -> tight1 z [a'; b'].
Proof.
  intros Ea Eb (A & (x1 & I1 & E1) & (x2 & I2 & E2)). unfold in_range in A.
  pose proof (A a (or_introl eq_refl)) as Aa. pose proof (A b (or_intror (or_introl eq_refl))) as Ab.
  split; [|split].
  - intros x [<-|[<-|[]]]; unfold in_range; lra.
  - destruct I1 as [<-|[<-|[]]]; [exists a'|exists b']; (split; [cbn; auto|lra]).
  - destruct I2 as [<-|[<-|[]]]; [exists a'|exists b']; (split; [cbn; auto|lra]).
Qed.

Lemma coord_eqb_comp a b : coord_eqb a b = true <-> Qabs (a - b) < equality_tolerance.
Proof. unfold coord_eqb. apply Qltb_lt. Qed.

Definition seen_across (p q : Plane) (a b : point3) (r : Q) (g : polygon) : Prop :=
  straight p a b -> tight (g_bounding g) (map (drawn q) (cylinder p a b (r / 2)))
    /\ lo (g_z g) == depth q a /\ hi (g_z g) == depth q a.

Lemma range_point a b z : a == b -> z = range_z a b -> lo z == a /\ hi z == a.
Proof.
  intros E ->. pose proof (range_z_tight a b) as (_ & (x & Ix & Ex) & (y & Iy & Ey)).
  destruct Ix as [<-|[<-|[]]], Iy as [<-|[<-|[]]]; split; lra.
Qed.

Lemma cylinder_shapes circle pp n m pr p s : as_wide circle ->
  let a := point3_of (child "P1" n) in
  let b := point3_of (child "P2" n) in
  let r := as_double "Radius" 0 n in
  along p a b ->
  exists s' gs, parse_cylinder circle pp n m pr s = Done s' /\ drew gs no_line s s'
    /\ Forall2 (fun q g => made_of m pr g /\ g_plane g = q
         /\ (q = p -> shows p (cylinder p a b r) g /\ g_points g = circle (drawn p a) r)
         /\ (q <> p -> seen_across p q a b r g)) (filter (wanted pp) (p :: others p)) gs.
Proof.
  intros W a b r Al. unfold parse_cylinder. fold a b r.
  assert (One : forall z z', z = depth p a -> z' = depth p b ->
    one_shape (add_shape p (Some m) pr (range_z z z') (circle (drawn p a) r))
      (fun g => made_of m pr g /\ g_plane g = p
         /\ (p = p -> shows p (cylinder p a b r) g /\ g_points g = circle (drawn p a) r)
         /\ (p <> p -> seen_across p p a b r g))).
  { intros z z' -> -> s0. destruct (W (drawn p a) r) as [N T].
    destruct (add_shape_done p m pr (range_z (depth p a) (depth p b)) _ s0 N) as (s' & g & E & D & GP & M & Z & Pts & B).
    exists s', g. split; [assumption|]. split; [assumption|]. split; [assumption|]. split; [assumption|]. split; [|congruence].
    intros _. split; [|assumption]. split; [assumption|]. split.
    - eapply tight_set; [| |apply T, B]; intros x; destruct p; cbn; intuition.
    - rewrite Z. eapply tight1_set; [|apply range_z_tight]. intros x; destruct p; cbn; intuition. }
  assert (Two : forall q c d za zb,
     q <> p -> za = depth q a -> (straight p a b -> depth q a == zb) ->
     (straight p a b -> forall x, tight1 x [px c; px d] -> tight1 x (map px (map (drawn q) (cylinder p a b (r / 2))))) ->
     (straight p a b -> forall x, tight1 x [py c; py d] -> tight1 x (map py (map (drawn q) (cylinder p a b (r / 2))))) ->
     one_shape (add_box q (Some m) pr (range_z za zb) c d)
      (fun g => made_of m pr g /\ g_plane g = q
         /\ (q = p -> shows p (cylinder p a b r) g /\ g_points g = circle (drawn p a) r)
         /\ (q <> p -> seen_across p q a b r g))).
  { intros q c d za zb Nq -> Z X Y s0.
    destruct (add_box_done q m pr (range_z (depth q a) zb) c d s0) as (s' & g & E & D & P & M & Q & Pts & Bx & By).
    exists s', g. split; [assumption|]. split; [assumption|]. split; [assumption|]. split; [assumption|]. split; [congruence|].
    intros _ St. split.
    - apply tight_sides. split; [now apply X|now apply Y].
    - now apply (range_point _ zb); [apply Z|]. }
  assert (Side : forall x c c' l, c == c' -> (forall y, In y l <-> y = c - r / 2 \/ y = c + r / 2 \/ y = c) ->
     tight1 x [c - r / 2; c' + r / 2] -> tight1 x l).
  { intros x c c' l Ec S T. apply (tight1_middle x (c - r / 2) (c + r / 2)).
    - eapply tight1_ends; [| |exact T]; lra.
    - intros y Iy. apply S in Iy. unfold between1. destruct (Qlt_le_dec (r / 2) 0); destruct Iy as [->|[->| ->]]; lra.
    - apply S. auto.
    - apply S. auto. }
  destruct Al as (A1 & A2 & A3).
  destruct p; cbn [drawn depth px py] in A1, A2, A3; cbn [others].
  - rewrite (proj2 (coord_eqb_comp _ _) A1), (proj2 (coord_eqb_comp _ _) A2). cbn [andb].
    apply (three_shapes pp PYZ PZX PXY _ _ _ (fun q g => made_of m pr g /\ g_plane g = q
         /\ (q = PYZ -> shows PYZ (cylinder PYZ a b r) g /\ g_points g = circle (drawn PYZ a) r)
         /\ (q <> PYZ -> seen_across PYZ q a b r g))); [now apply One|apply Two..]; try discriminate; try reflexivity;
    intros [S1 S2]; cbn [drawn depth px py] in S1, S2 |- *; try assumption; intros x T; rewrite map_map;
    first [apply (Side x _ _ _ S1); [cbn; intuition|exact T]|apply (Side x _ _ _ S2); [cbn; intuition|exact T]|eapply tight1_set; [|exact T]; cbn; intuition].
  - destruct (coord_eqb (y3 a) (y3 b)) eqn:K; [now apply coord_eqb_comp in K|].
    rewrite (proj2 (coord_eqb_comp _ _) A1), (proj2 (coord_eqb_comp _ _) A2). cbn [andb].
    apply (three_shapes pp PZX PXY PYZ _ _ _ (fun q g => made_of m pr g /\ g_plane g = q
         /\ (q = PZX -> shows PZX (cylinder PZX a b r) g /\ g_points g = circle (drawn PZX a) r)
         /\ (q <> PZX -> seen_across PZX q a b r g))); [now apply One|apply Two..]; try discriminate; try reflexivity;
    intros [S1 S2]; cbn [drawn depth px py] in S1, S2 |- *; try assumption; intros x T; rewrite map_map;
    first [apply (Side x _ _ _ S1); [cbn; intuition|exact T]|apply (Side x _ _ _ S2); [cbn; intuition|exact T]|eapply tight1_set; [|exact T]; cbn; intuition].
  - destruct (coord_eqb (z3 a) (z3 b)) eqn:K; [now apply coord_eqb_comp in K|].
    rewrite (proj2 (coord_eqb_comp _ _) A1), (proj2 (coord_eqb_comp _ _) A2). rewrite andb_false_r. cbn [andb].
    apply (three_shapes pp PXY PYZ PZX _ _ _ (fun q g => made_of m pr g /\ g_plane g = q
         /\ (q = PXY -> shows PXY (cylinder PXY a b r) g /\ g_points g = circle (drawn PXY a) r)
         /\ (q <> PXY -> seen_across PXY q a b r g))); [now apply One|apply Two..]; try discriminate; try reflexivity;
    intros [S1 S2]; cbn [drawn depth px py] in S1, S2 |- *; try assumption; intros x T; rewrite map_map;
    first [apply (Side x _ _ _ S1); [cbn; intuition|exact T]|apply (Side x _ _ _ S2); [cbn; intuition|exact T]|eapply tight1_set; [|exact T]; cbn; intuition].
Qed.

(** ** Several boxes, points *)

Lemma multibox_shapes pp n m pr s :
  exists s' gs, parse_multibox pp n m pr s = Done s' /\ drew gs no_line s s'
    /\ Forall2 (fun xp g => let a := point3_of (fst (fst xp)) in let b := point3_of (snd (fst xp)) in
         shows (snd xp) (corners a b) g /\ made_of m pr g /\ g_points g = box_points (drawn (snd xp) a) (drawn (snd xp) b))
         (list_prod (combine (named "StartP" (children_of n)) (named "EndP" (children_of n))) (wanted_planes pp)) gs.
Proof.
  unfold parse_multibox. generalize (combine (named "StartP" (children_of n)) (named "EndP" (children_of n))) as l.
  intros l. revert s. induction l as [|[x y] l IH]; intros s; cbn [for_each list_prod].
  - exists s, []. split; [reflexivity|]. split; [apply drew_refl|constructor].
  - destruct (box3_shapes pp m pr (point3_of x) (point3_of y) s) as (s1 & g1 & E1 & D1 & F1). cbn [fst snd]. rewrite E1. cbn [bind].
    destruct (IH s1) as (s2 & g2 & E2 & D2 & F2). exists s2, (g1 ++ g2). split; [assumption|]. split; [eapply drew_then; eassumption|].
    apply Forall2_app; [|assumption]. clear -F1. induction F1; constructor; assumption.
Qed.

Lemma point_lines pp n s :
  let v := point3_of n in
  drew [] (fun ax => match ax with
                     | AX => (if with_zx pp then [x3 v] else []) ++ (if with_xy pp then [x3 v] else [])
                     | AY => (if with_yz pp then [y3 v] else []) ++ (if with_xy pp then [y3 v] else [])
                     | AZ => (if with_yz pp then [z3 v] else []) ++ (if with_zx pp then [z3 v] else [])
                     end) s (parse_point pp n s).
Proof.
  intros v. unfold parse_point. fold v.
  split; [|split; [|split; [|split]]].
  1-3: destruct (with_yz pp), (with_zx pp), (with_xy pp); cbn; now rewrite ?app_nil_r.
  - now destruct (with_yz pp), (with_zx pp), (with_xy pp).
  - intros ax. destruct (with_yz pp), (with_zx pp), (with_xy pp), ax; cbn; now rewrite <- ?app_assoc, ?app_nil_r.
Qed.

(** ** Any primitive *)

Lemma parse_kind kind uint_max size_max circle pp m s n : primitive kind n ->
  parse_primitive uint_max size_max circle pp m s n =
  (let is x := String.eqb kind x in
   let priority := parse_priority uint_max size_max n m in
      if is "Box"%string then parse_box pp n m priority s
      else if is "MultiBox"%string then parse_multibox pp n m priority s
      else if is "LinPoly"%string then parse_linpoly uint_max pp n m priority s
      else if is "Polygon"%string then parse_polygon uint_max n m priority s
      else if is "Sphere"%string then parse_sphere circle pp n m priority s
      else if is "Cylinder"%string then parse_cylinder circle pp n m priority s
      else if is "Point"%string then Done (parse_point pp n s)
      else if is "Curve"%string then parse_curve size_max pp n m s
      else Done s).
Proof. intros [<- T]. unfold parse_primitive. now rewrite T. Qed.

Definition some_of (m : Mat) (g : polygon) : Prop := exists k, made_of m k g.

Lemma made_shape p m pr z l : l <> [] -> one_shape (add_shape p (Some m) pr z l) (some_of m).
Proof. intros N s. destruct (add_shape_done p m pr z l s N) as (s' & g & E & D & _ & M & _). exists s', g. repeat split; try assumption; try apply D. now exists pr. Qed.
Lemma made_box p m pr z a b : one_shape (add_box p (Some m) pr z a b) (some_of m).
Proof. apply made_shape. discriminate. Qed.

Lemma Forall2_any {A B : Type} (P : B -> Prop) (l : list A) gs : Forall2 (fun _ g => P g) l gs -> Forall P gs.
Proof. induction 1; constructor; assumption. Qed.

Lemma made_three w p1 p2 p3 f1 f2 f3 (P : polygon -> Prop) :
  one_shape f1 P -> one_shape f2 P -> one_shape f3 P ->
  forall s, exists s' gs,
    (let! s := when (wanted w p1) f1 s in let! s := when (wanted w p2) f2 s in when (wanted w p3) f3 s) = Done s'
    /\ drew gs no_line s s' /\ Forall P gs.
Proof.
  intros F1 F2 F3 s. destruct (three_shapes w p1 p2 p3 f1 f2 f3 (fun _ => P) F1 F2 F3 s) as (s' & gs & E & D & F).
  exists s', gs. split; [assumption|]. split; [assumption|]. now apply Forall2_any in F.
Qed.

(** A polygon, an extruded polygon or a curve without vertices. *)
Lemma primitive_ends uint_max size_max circle pp m s n :
  (forall c r, circle c r <> []) ->
  (In (name_of n) ["LinPoly"; "Polygon"; "Curve"]%string -> named "Vertex" (children_of n) <> []) ->
  exists s' gs lines, parse_primitive uint_max size_max circle pp m s n = Done s' /\ drew gs lines s s' /\ Forall (some_of m) gs.
Proof.
  intros C V. destruct (children_of (child "Transformation" n)) as [|t ts] eqn:T.
  2: { unfold parse_primitive. rewrite T. exists s, [], no_line. split; [reflexivity|]. split; [apply drew_refl|constructor]. }
  assert (K : primitive (name_of n) n) by now split.
  rewrite (parse_kind _ _ _ _ _ _ _ _ K). clear K T. set (pr := parse_priority uint_max size_max n m). clearbody pr.
  assert (Weak : forall f, (exists s' gs, f = Done s' /\ drew gs no_line s s' /\ Forall (some_of m) gs) ->
    exists s' gs lines, f = Done s' /\ drew gs lines s s' /\ Forall (some_of m) gs).
  { intros f (s' & gs & H). exists s', gs, no_line. exact H. }
  assert (Made : forall A (R : A -> polygon -> Prop) l gs, (forall x g, R x g -> made_of m pr g) -> Forall2 R l gs -> Forall (some_of m) gs).
  { intros A R l gs H F. induction F; constructor; [|assumption]. exists pr. eauto. }
  cbv beta zeta.
  destruct (String.eqb_spec (name_of n) "Box") as [E|_].
  { apply Weak. destruct (box3_shapes pp m pr (point3_of (child "P1" n)) (point3_of (child "P2" n)) s) as (s' & gs & E' & D & F).
    exists s', gs. split; [exact E'|]. split; [assumption|]. eapply Made; [|exact F]. cbn. tauto. }
  destruct (String.eqb_spec (name_of n) "MultiBox") as [E|_].
  { apply Weak. destruct (multibox_shapes pp n m pr s) as (s' & gs & E' & D & F).
    exists s', gs. split; [exact E'|]. split; [assumption|]. eapply Made; [|exact F]. cbn. tauto. }
  destruct (String.eqb_spec (name_of n) "LinPoly") as [E|_].
  { assert (N : map vertex_of (named "Vertex" (children_of n)) <> []).
    { rewrite E in V. specialize (V (or_introl eq_refl)). destruct (named "Vertex" (children_of n)); [congruence|discriminate]. }
    apply Weak. destruct (to_plane (as_uint uint_max "NormDir" 0 n)) as [p|] eqn:P.
    - destruct (linpoly_shapes uint_max pp n m pr p s P N) as (s' & g & gs & E' & D & _ & _ & M & F).
      exists s', (g :: gs). split; [assumption|]. split; [assumption|]. constructor; [now exists pr|]. eapply Made; [|exact F]. cbn. tauto.
    - unfold parse_linpoly. rewrite P. exists s, []. split; [reflexivity|]. split; [apply drew_refl|constructor]. }
  destruct (String.eqb_spec (name_of n) "Polygon") as [E|_].
  { assert (N : map vertex_of (named "Vertex" (children_of n)) <> []).
    { rewrite E in V. specialize (V (or_intror (or_introl eq_refl))). destruct (named "Vertex" (children_of n)); [congruence|discriminate]. }
    destruct (to_plane (as_uint uint_max "NormDir" 0 n)) as [p|] eqn:P.
    - destruct (polygon_shape uint_max n m pr p s P N) as (s' & g & E' & D & _ & _ & M).
      eexists s', [g], _. split; [assumption|]. split; [exact D|]. constructor; [now exists pr|constructor].
    - unfold parse_polygon. rewrite P. exists s, [], no_line. split; [reflexivity|]. split; [apply drew_refl|constructor]. }
  destruct (String.eqb_spec (name_of n) "Sphere") as [E|_].
  { apply Weak. apply (made_three pp PYZ PZX PXY); apply made_shape; apply C. }
  destruct (String.eqb_spec (name_of n) "Cylinder") as [E|_].
  { apply Weak. unfold parse_cylinder. set (a := point3_of _). set (b := point3_of _).
    destruct (coord_eqb (y3 a) (y3 b) && coord_eqb (z3 a) (z3 b)).
    { apply (made_three pp PYZ PZX PXY); [apply made_shape, C|apply made_box..]. }
    destruct (coord_eqb (z3 a) (z3 b) && coord_eqb (x3 a) (x3 b)).
    { apply (made_three pp PZX PXY PYZ); [apply made_shape, C|apply made_box..]. }
    destruct (coord_eqb (x3 a) (x3 b) && coord_eqb (y3 a) (y3 b)).
    { apply (made_three pp PXY PYZ PZX); [apply made_shape, C|apply made_box..]. }
    exists s, []. split; [reflexivity|]. split; [apply drew_refl|constructor]. }
  destruct (String.eqb_spec (name_of n) "Point") as [E|_].
  { eexists _, [], _. split; [reflexivity|]. split; [apply point_lines|constructor]. }
  destruct (String.eqb_spec (name_of n) "Curve") as [E|_].
  { assert (N : map point3_of (named "Vertex" (children_of n)) <> []).
    { rewrite E in V. specialize (V (or_intror (or_intror (or_introl eq_refl)))). destruct (named "Vertex" (children_of n)); [congruence|discriminate]. }
    apply Weak. destruct (curve_shapes size_max pp n m s N) as (s' & gs & E' & D & F).
    exists s', gs. split; [assumption|]. split; [assumption|]. clear -F. induction F as [|p g l gs (_ & _ & M & _)]; constructor; [now exists size_max|assumption]. }
  exists s, [], no_line. split; [reflexivity|]. split; [apply drew_refl|constructor].
Qed.

Lemma primitives_end uint_max size_max circle pp m l : (forall c r, circle c r <> []) ->
  (forall n, In n l -> In (name_of n) ["LinPoly"; "Polygon"; "Curve"]%string -> named "Vertex" (children_of n) <> []) ->
  forall s, exists s' gs lines, for_each (parse_primitive uint_max size_max circle pp m) l s = Done s' /\ drew gs lines s s' /\ Forall (some_of m) gs.
Proof.
  intros C. induction l as [|n l IH]; intros V s; cbn [for_each].
  - exists s, [], no_line. split; [reflexivity|]. split; [apply drew_refl|constructor].
  - destruct (primitive_ends uint_max size_max circle pp m s n C) as (s1 & g1 & l1 & -> & D1 & F1); [apply V; now left|].
    cbn [bind]. destruct (IH (fun n' I => V n' (or_intror I)) s1) as (s2 & g2 & l2 & -> & D2 & F2).
    eexists s2, (g1 ++ g2), _. split; [reflexivity|]. split; [eapply drew_trans; eassumption|now apply Forall_app].
Qed.

Lemma properties_end uint_max size_max circle pp l : (forall c r, circle c r <> []) ->
  (forall x n, In x l -> In n (children_of (child "Primitives" x)) -> In (name_of n) ["LinPoly"; "Polygon"; "Curve"]%string -> named "Vertex" (children_of n) <> []) ->
  forall s, exists s' gs lines, parse_properties uint_max size_max circle pp l s = Done s' /\ drew gs lines s s' /\ Forall (fun g => g_material g <> None) gs.
Proof.
  intros C. unfold parse_properties. induction l as [|x l IH]; intros V s; cbn [for_each].
  - exists s, [], no_line. split; [reflexivity|]. split; [apply drew_refl|constructor].
  - assert (One : exists s1 g1 l1, match parse_property x with
         | Some m => for_each (parse_primitive uint_max size_max circle pp m) (children_of (child "Primitives" x)) s
         | None => Done s end = Done s1 /\ drew g1 l1 s s1 /\ Forall (fun g => g_material g <> None) g1).
    { destruct (parse_property x) as [m|].
      - destruct (primitives_end uint_max size_max circle pp m (children_of (child "Primitives" x)) C) with (s := s) as (s1 & g1 & l1 & E & D & F).
        { intros n I. apply (V x n); [now left|assumption]. }
        exists s1, g1, l1. split; [assumption|]. split; [assumption|]. eapply Forall_impl; [|exact F]. intros g (k & M & _). congruence.
      - exists s, [], no_line. split; [reflexivity|]. split; [apply drew_refl|constructor]. }
    destruct One as (s1 & g1 & l1 & -> & D1 & F1). cbn [bind].
    destruct (IH (fun x' n' I => V x' n' (or_intror I)) s1) as (s2 & g2 & l2 & -> & D2 & F2).
    eexists s2, (g1 ++ g2), _. split; [reflexivity|]. split; [eapply drew_trans; eassumption|now apply Forall_app].
Qed.

(** ** The lines asked for *)

Lemma parse_lines_adds unit ax l : forall s s', parse_lines unit ax l s = Some s' ->
  exists xs, Forall2 (fun t x => exists v, from_chars t = Some v /\ x = inject_Z (Z.of_nat unit) * v) l xs
    /\ bd_board s' = bd_board s /\ bd_params s' = bd_params s
    /\ on_axis (bd_fixed s') ax = on_axis (bd_fixed s) ax ++ xs
    /\ forall ax', ax' <> ax -> on_axis (bd_fixed s') ax' = on_axis (bd_fixed s) ax'.
Proof.
  induction l as [|t l IH]; intros s s' E; cbn [parse_lines] in E.
  - injection E as <-. exists []. repeat split; [constructor|now rewrite app_nil_r].
  - destruct (from_chars t) as [v|] eqn:V; [|discriminate].
    destruct (IH _ _ E) as (xs & F & B & P & A & O). exists (inject_Z (Z.of_nat unit) * v :: xs).
    split; [constructor; eauto|]. split; [assumption|]. split; [assumption|]. split.
    + rewrite A. cbn. destruct ax; cbn; now rewrite <- app_assoc.
    + intros ax' N. rewrite O by assumption. destruct ax, ax'; cbn; congruence.
Qed.

Lemma parse_lines_fails unit ax l : forall s, parse_lines unit ax l s = None <-> exists t, In t l /\ from_chars t = None.
Proof.
  induction l as [|t l IH]; intros s; cbn [parse_lines].
  - split; [discriminate|intros (t & [] & _)].
  - destruct (from_chars t) as [v|] eqn:V.
    + rewrite IH. split; [intros (t' & I & E); exists t'; split; [now right|assumption]|]. intros (t' & [<-|I] & E); [congruence|eauto].
    + split; [|reflexivity]. intros _. exists t. split; [now left|assumption].
Qed.
