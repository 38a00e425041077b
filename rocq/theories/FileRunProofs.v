(** From a file to mesh lines. *)
From Coq Require Import List Arith Bool QArith Qabs String Ascii Lia Lqa.
From Verif Require Import IntervalModel ManagerModel ManagerSpec GeomModel GeomSpec BoardModel BoardSpec EndSpec InfraModel InfraSpec InfraProofs InfraFileProofs InfraWriteProofs.
Import ListNotations.
Open Scope Q_scope.

(** ** What the polygons of a board were drawn with *)

Section Drawn.
Variable P : list point -> Prop.
Definition all_drawn (s : builder) : Prop := Forall (fun g => P (g_points g)) (b_polygons (bd_board s)).
Definition draws (f : builder -> run builder) : Prop := forall s s', f s = Done s' -> all_drawn s -> all_drawn s'.

Lemma draws_done : draws (fun s => Done s). Proof. intros s s' E. now injection E as <-. Qed.
Lemma draws_bind f g : draws f -> draws g -> draws (fun s => let! s := f s in g s).
Proof. intros F G s s' E A. destruct (f s) as [s1| |] eqn:E1; try discriminate. cbn in E. exact (G _ _ E (F _ _ E1 A)). Qed.
Lemma draws_when c f : draws f -> draws (when c f).
Proof. intros F s s' E. destruct c; [now apply F|]. now injection E as <-. Qed.
Lemma draws_shape p m pr z l : P l -> draws (add_shape p m pr z l).
Proof.
  intros H s s' E A. unfold add_shape, add_polygon in E. destruct (detect_bounding l); try discriminate. cbn in E. destruct (polygon_edges l); try discriminate. cbn in E.
  injection E as <-. unfold all_drawn. cbn. apply Forall_app. split; [exact A|]. constructor; [exact H|constructor].
Qed.
Lemma draws_for_each {A : Type} (f : builder -> A -> run builder) l : (forall x, In x l -> draws (fun s => f s x)) -> draws (for_each f l).
Proof.
  intros F. induction l as [|x l IH]; intros s s' E D; cbn [for_each] in E; [now injection E as <-|].
  destruct (f s x) as [s1| |] eqn:E1; try discriminate. cbn in E. apply (IH (fun y I => F y (or_intror I)) _ _ E). exact (F x (or_introl eq_refl) _ _ E1 D).
Qed.
Lemma draws_run {A : Type} (r : run A) (f : A -> builder -> run builder) : (forall a, draws (f a)) -> draws (fun s => let! a := r in f a s).
Proof. intros F s s' E. destruct r; try discriminate. cbn in E. now apply F in E. Qed.
Lemma draws_three c1 c2 c3 f1 f2 f3 : draws f1 -> draws f2 -> draws f3 ->
  draws (fun s => let! s := when c1 f1 s in let! s := when c2 f2 s in when c3 f3 s).
Proof.
  intros F1 F2 F3. apply (draws_bind (when c1 f1) (fun s => let! s := when c2 f2 s in when c3 f3 s)); [now apply draws_when|].
  apply (draws_bind (when c2 f2) (when c3 f3)); now apply draws_when.
Qed.
Lemma draws_two c1 c2 f1 f2 : draws f1 -> draws f2 -> draws (fun s => let! s := when c1 f1 s in when c2 f2 s).
Proof. intros F1 F2. apply (draws_bind (when c1 f1) (when c2 f2)); now apply draws_when. Qed.

Hypothesis boxes : forall a b, P (box_points a b).
Lemma draws_box p m pr z a b : draws (add_box p m pr z a b). Proof. apply draws_shape, boxes. Qed.
Lemma draws_box3 pp m pr a b : draws (add_box3 pp m pr a b). Proof. apply draws_three; apply draws_box. Qed.

(** The outlines of the element, other than boxes. *)
Definition outlined (circle : point -> Q -> list point) (n : xml) : Prop :=
  (In (name_of n) ["LinPoly"; "Polygon"]%string -> P (map vertex_of (named "Vertex" (children_of n))))
  /\ (In (name_of n) ["Sphere"; "Cylinder"]%string -> forall c r, P (circle c r))
  /\ (name_of n = "Curve"%string -> forall f, P (curve_points f (map point3_of (named "Vertex" (children_of n))))).

Lemma add_fixed_drawn ax x s : all_drawn (add_fixed ax x s) <-> all_drawn s. Proof. reflexivity. Qed.

Lemma draws_primitive uint_max size_max circle pp m n : outlined circle n -> draws (fun s => parse_primitive uint_max size_max circle pp m s n).
Proof.
  intros (O1 & O2 & O3). unfold parse_primitive. destruct (children_of (child "Transformation" n)); [|apply draws_done]. cbv beta zeta.
  generalize (parse_priority uint_max size_max n m) as pr. intros pr.
  destruct (String.eqb_spec (name_of n) "Box") as [_|_]; [apply draws_box3|].
  destruct (String.eqb_spec (name_of n) "MultiBox") as [_|_]; [apply draws_for_each; intros x _; apply draws_box3|].
  destruct (String.eqb_spec (name_of n) "LinPoly") as [E|_].
  { unfold parse_linpoly. destruct (to_plane _) as [p|]; [|apply draws_done].
    apply draws_run. intros b. apply draws_bind; [apply draws_shape, O1; rewrite E; now left|].
    destruct (Qeq_bool _ _); [apply draws_done|]. destruct p; apply draws_two; apply draws_box. }
  destruct (String.eqb_spec (name_of n) "Polygon") as [E|_].
  { unfold parse_polygon. destruct (to_plane _) as [p|]; [|apply draws_done]. destruct (to_axis _) as [ax|]; [|apply draws_done].
    apply draws_run. intros b. apply draws_bind; [apply draws_shape, O1; rewrite E; right; now left|]. intros s s' Es. injection Es as <-. now rewrite add_fixed_drawn. }
  destruct (String.eqb_spec (name_of n) "Sphere") as [E|_]; [apply draws_three; apply draws_shape, O2; rewrite E; now left|].
  destruct (String.eqb_spec (name_of n) "Cylinder") as [E|_].
  { assert (O : forall c r, P (circle c r)) by (apply O2; rewrite E; right; now left).
    unfold parse_cylinder. cbv zeta. destruct (_ && _)%bool; [apply draws_three; [apply draws_shape, O|apply draws_box..]|].
    destruct (_ && _)%bool; [apply draws_three; [apply draws_shape, O|apply draws_box..]|].
    destruct (_ && _)%bool; [apply draws_three; [apply draws_shape, O|apply draws_box..]|]. apply draws_done. }
  destruct (String.eqb_spec (name_of n) "Point") as [_|_].
  { intros s s' E. injection E as <-. unfold parse_point. destruct (with_yz pp), (with_zx pp), (with_xy pp); now rewrite ?add_fixed_drawn. }
  destruct (String.eqb_spec (name_of n) "Curve") as [E|_]; [|apply draws_done].
  apply draws_three; apply draws_run; intros z; apply draws_shape, (O3 E).
Qed.

Lemma parse_drawn uint_max size_max circle pp doc s : (forall n, inside n doc -> outlined circle n) ->
  parse uint_max size_max circle pp doc = Done (Some s) -> all_drawn s.
Proof.
  intros O E. destruct (parse_done _ _ _ _ _ _ E) as (csx & s0 & l1 & l2 & _ & Pr & -> & _). change (all_drawn s0).
  assert (D : draws (parse_properties uint_max size_max circle pp (properties_of doc))).
  { apply draws_for_each. intros x Ix. destruct (parse_property x); [|apply draws_done]. apply draws_for_each. intros n I. apply draws_primitive, O.
    unfold properties_of in Ix. apply inside_or_null in Ix as (k & K & Ix). apply inside_or_null in I as (y & M & I). apply named_in in M as [M _].
    eapply inside_trans; [|exact I]. eapply inside_trans; [|exact M]. eapply inside_trans; [|exact Ix]. eapply select_inside; [|exact K]. intros z Z. now apply inside_here. }
  apply (D _ _ Pr). constructor.
Qed.
End Drawn.

(** Options change nothing to the board. *)
Lemma parse_with_inv uint_max size_max circle pp f doc s : parse_with uint_max size_max circle pp f doc = Done (Some s) ->
  exists s0, parse uint_max size_max circle pp doc = Done (Some s0) /\ bd_board s = bd_board s0.
Proof.
  unfold parse_with. destruct (parse uint_max size_max circle pp doc) as [[s0|]| |]; cbn [bind]; try discriminate. intros E. injection E as <-. exists s0. split; [reflexivity|].
  cbn [bd_board set_params]. destruct (add_all (input_fixed (f (bd_params s0))) s0) as (H & _). exact H.
Qed.
