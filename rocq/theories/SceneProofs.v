(** Proofs about the graph view: its nodes and wires. *)
From Coq Require Import List Arith Bool QArith Lia Relations.Relation_Operators Relations.Operators_Properties.
From Verif Require Import IntervalModel ManagerModel ManagerSpec ManagerProofs GeomModel BoardModel BoardSpec BoardDetectProofs SceneModel SceneSpec.
Import ListNotations.
Open Scope nat_scope.

(** ** Small facts *)

Lemma axis_eqb_eq a c : axis_eqb a c = true <-> a = c.
Proof. destruct a, c; cbn; split; congruence. Qed.
Lemma plane_eqb_same p q : plane_eqb p q = true <-> p = q.
Proof. destruct p, q; cbn; split; congruence. Qed.
Lemma entity_eqb_eq x y : entity_eqb x y = true <-> x = y.
Proof.
  destruct x, y; cbn; try (split; congruence); try (rewrite Nat.eqb_eq; split; congruence);
    rewrite andb_true_iff, Nat.eqb_eq, ?axis_eqb_eq, ?plane_eqb_same; (split; [intros [-> ->]; reflexivity|intros H; injection H; auto]).
Qed.
Lemma wire_eqb_eq v w : wire_eqb v w = true <-> v = w.
Proof.
  destruct v, w. unfold wire_eqb. cbn. rewrite !andb_true_iff, !Nat.eqb_eq. split; [intros [[-> ->] ->]; reflexivity|intros H; injection H; auto].
Qed.

Lemma read_some {A} (l : list A) i x : read l i = Done x <-> nth_error l i = Some x.
Proof. unfold read. destruct (nth_error l i); split; congruence. Qed.
Lemma read_lt {A} (l : list A) i : i < length l -> exists x, read l i = Done x.
Proof. intros H. unfold read. destruct (nth_error l i) eqn:E; [eauto|]. apply nth_error_None in E. lia. Qed.
Lemma nth_lt {A} (l : list A) i x : nth_error l i = Some x -> i < length l.
Proof. intros H. apply nth_error_Some. congruence. Qed.

Lemma bind_done {A B} (m : run A) (f : A -> run B) y : bind m f = Done y -> exists x, m = Done x /\ f x = Done y.
Proof. destruct m; cbn; try discriminate. eauto. Qed.

Lemma in_numbered {A} (l : list A) x : (exists n, In (x, n) (numbered l)) <-> In x l.
Proof.
  unfold numbered. generalize 0. induction l as [|y r IH]; intros s; cbn; [split; [intros [n []]|intros []]|].
  split.
  - intros [n [H|H]]; [left; congruence|right]. apply (proj1 (IH (S s))). now exists n.
  - intros [->|H]; [exists s; now left|]. destruct (proj2 (IH (S s)) H) as [n Hn]. exists n. now right.
Qed.

Lemma in_positions_spec {A} (f : A -> bool) l i : In i (positions f l) <-> exists x, nth_error l i = Some x /\ f x = true.
Proof.
  unfold positions, view. rewrite in_map_iff. split.
  - intros ((j & x) & E & H). cbn in E. subst j. apply filter_In in H. destruct H as [H F]. exists x. split; [|exact F].
    assert (G : forall s l i, In (i, x) (combine (seq s (length l)) l) -> s <= i /\ nth_error l (i - s) = Some x).
    { clear. intros s l. revert s. induction l as [|y r IH]; intros s i; cbn; [intros []|]. intros [H|H].
      - injection H as -> ->. now rewrite Nat.sub_diag.
      - apply IH in H. destruct H as [L H]. split; [lia|]. replace (i - s) with (S (i - S s)) by lia. exact H. }
    apply G in H. destruct H as [_ H]. now rewrite Nat.sub_0_r in H.
  - intros (x & H & F). exists (i, x). split; [reflexivity|]. apply filter_In. split; [|exact F].
    assert (G : forall s l i, nth_error l i = Some x -> In (s + i, x) (combine (seq s (length l)) l)).
    { clear. intros s l. revert s. induction l as [|y r IH]; intros s [|i]; cbn; try discriminate.
      - intros H. injection H as ->. left. f_equal. lia.
      - intros H. right. replace (s + S i) with (S s + i) by lia. now apply IH. }
    exact (G 0 l i H).
Qed.

Lemma in_maybe {A} (x : option A) y : In y (maybe x) <-> x = Some y.
Proof. destruct x; cbn; split; try tauto; try congruence. intros [->|[]]; reflexivity. intros H; injection H; auto. Qed.

(** ** What a node has to be wired to *)

Lemma to_wire_from b k y l x : to_wire b k y = Done l -> (exists n, In (x, n) l) <-> comes_from b k y x.
Proof.
  intros T. destruct y as [i|i|i|a i|p i|a i|a i|a i|a i|a i]; cbn [to_wire] in T; apply bind_done in T; destruct T as (o & R & T);
    apply read_some in R; injection T as <-.
  - split; [intros [n []]|]. intros C. inversion C.
  - split.
    + intros [n H]. apply in_map_iff in H. destruct H as (c & E & H). injection E as <- <-. apply in_maybe in H. now apply edge_from_solution with o.
    + intros C. inversion C as [i' e' c' E S'| | | | | | | | | | |]; subst. unfold edge_at in E. rewrite R in E. injection E as ->.
      exists 0. apply in_map_iff. exists c'. split; [reflexivity|now apply in_maybe].
  - split.
    + intros [n [H|[H|[]]]]; injection H as <- _; apply angle_from_edge with o; auto.
    + intros C. inversion C as [|i' e' j' E S'| | | | | | | | | |]; subst. rewrite R in E. injection E as ->. destruct S' as [->| ->]; [exists 0; now left|exists 1; right; now left].
  - rewrite in_numbered. split.
    + intros H. apply in_map_iff in H. destruct H as (j & <- & H). now apply colinear_from_edge with o.
    + intros C. inversion C as [| |a' i' e' j' E S'| | | | | | | | |]; subst. rewrite R in E. injection E as ->. now apply in_map.
  - rewrite in_numbered. split.
    + intros [<-|H]; [now apply in_polygon_from_edge|]. apply in_map_iff in H. destruct H as (j & <- & H). now apply in_polygon_from_polygon with o.
    + intros C. inversion C as [| | |p' i' e' E|p' i' e' o' E S'| | | | | | |]; subst; unfold eip_at in E; rewrite R in E; injection E as ->; [now left|right].
      apply in_map_iff. now exists o'.
  - split.
    + intros [n [H|[H|[]]]]; injection H as <- _; apply close_from_policy with o; auto.
    + intros C. inversion C as [| | | | |a' i' e' j' E S'| | | | | |]; subst. rewrite R in E. injection E as ->. destruct S' as [->| ->]; [exists 0; now left|exists 1; right; now left].
  - split.
    + intros [n H]. apply in_map_iff in H. destruct H as (j & E & H). injection E as <- _. now apply zone_from_angle with o.
    + intros C. inversion C as [| | | | | |a' i' e' j' E S'| | | | |]; subst. rewrite R in E. injection E as ->. exists 0. apply in_map_iff. now exists j'.
  - rewrite in_numbered. split.
    + intros H. now apply policy_from_origin with o.
    + intros C. inversion C as [| | | | | | |a' i' e' j' E S'| | | |]; subst. exact S'.
  - split.
    + intros [n H]. apply in_app_or in H. destruct H as [H|[H|[H|[]]]].
      * apply in_map_iff in H. destruct H as (j & E & H). injection E as <- _. now apply interval_from_zone with o.
      * injection H as <- _. apply interval_from_policy with o; auto.
      * injection H as <- _. apply interval_from_policy with o; auto.
    + intros C. inversion C as [| | | | | | | |a' i' e' j' E S'|a' i' e' j' E S'| |]; subst; rewrite R in E; injection E as ->.
      * exists 1. apply in_or_app. left. apply in_map_iff. now exists j'.
      * destruct S' as [->| ->]; eexists; apply in_or_app; right; [left|right; left]; reflexivity.
  - split.
    + intros [n H]. apply in_app_or in H. destruct H as [H|H]; apply in_map_iff in H; destruct H as (j & E & H); injection E as <- _; apply in_maybe in H;
        [now apply line_from_interval with o|now apply line_from_policy with o].
    + intros C. inversion C as [| | | | | | | | | |a' i' e' j' E S'|a' i' e' j' E S']; subst.
      * exists 0. apply in_or_app. left. apply in_map_iff. exists j'. split; [reflexivity|now apply in_maybe].
      * exists 1. apply in_or_app. right. apply in_map_iff. exists j'. split; [reflexivity|now apply in_maybe].
Qed.

(** ** Nodes *)

(** Nodes made for the board, with their links. *)
Definition made (b : board) (k : links) (n : node) : Prop :=
  match nd_what n with Thing x => on_board b x /\ to_wire b k x = Done (nd_to_wire n) | _ => nd_to_wire n = [] end.
Definition holds (ns : list node) (x : entity) : Prop := exists n, In n ns /\ nd_what n = Thing x.

Lemma add_things b k inside l : forall ns ns', for_each (add_thing b k inside) l ns = Done ns' ->
  exists t, ns' = ns ++ t /\ map nd_what t = map Thing l /\ Forall (fun n => exists x, nd_what n = Thing x /\ to_wire b k x = Done (nd_to_wire n)) t.
Proof.
  induction l as [|x r IH]; cbn [for_each]; intros ns ns' H.
  - injection H as <-. exists []. rewrite app_nil_r. repeat split. constructor.
  - apply bind_done in H. destruct H as (n1 & H1 & H). unfold add_thing in H1. apply bind_done in H1. destruct H1 as (w & W & H1). injection H1 as <-.
    apply IH in H. destruct H as (t & -> & M & F). eexists (_ :: t). rewrite <- app_assoc. split; [reflexivity|]. split; [cbn; now rewrite M|].
    constructor; [|exact F]. exists x. split; [reflexivity|exact W].
Qed.

Lemma made_all b k inside l ns ns' : for_each (add_thing b k inside) l ns = Done ns' -> (forall x, In x l -> on_board b x) ->
  Forall (made b k) ns -> Forall (made b k) ns' /\ (forall x, holds ns' x <-> holds ns x \/ In x l).
Proof.
  intros H O F. apply add_things in H. destruct H as (t & -> & M & G). split.
  - apply Forall_app. split; [exact F|]. rewrite Forall_forall in *. intros n N. destruct (G n N) as (x & W & T). unfold made. rewrite W. split; [|exact T].
    apply O. assert (I : In (Thing x) (map Thing l)) by (rewrite <- M, <- W; now apply in_map). apply in_map_iff in I. destruct I as (y & E & I). now injection E as ->.
  - intros x. unfold holds. split.
    + intros (n & N & W). apply in_app_or in N. destruct N as [N|N]; [left; eauto|right].
      assert (I : In (Thing x) (map Thing l)) by (rewrite <- M, <- W; now apply in_map). apply in_map_iff in I. destruct I as (y & E & I). now injection E as ->.
    + intros [(n & N & W)|I]; [exists n; split; [apply in_or_app; now left|exact W]|].
      assert (J : In (Thing x) (map nd_what t)) by (rewrite M; now apply in_map). apply in_map_iff in J. destruct J as (n & W & N).
      exists n. split; [apply in_or_app; now right|exact W].
Qed.

Lemma on_edge b i g : nth_error (b_polygons b) i = Some g -> forall x, In x (map EEdge (g_edges g)) -> on_board b x.
Proof. intros H x I. apply in_map_iff in I. destruct I as (j & <- & I). now exists i, g. Qed.

Lemma polygons_made b k plane l : forall ns ns', for_each (add_polygon_node b k plane) l ns = Done ns' ->
  Forall (made b k) ns -> Forall (made b k) ns' /\
  (forall x, holds ns' x <-> holds ns x \/ exists i g, In i l /\ nth_error (b_polygons b) i = Some g /\ (x = EPolygon i \/ In x (map EEdge (g_edges g)))).
Proof.
  induction l as [|i r IH]; cbn [for_each]; intros ns ns' H F.
  - injection H as <-. split; [exact F|]. intros x. split; [now left|]. intros [H|(i & g & [] & _)]. exact H.
  - apply bind_done in H. destruct H as (n1 & H1 & H). unfold add_polygon_node in H1. apply bind_done in H1. destruct H1 as (g & R & H1). apply read_some in R.
    apply bind_done in H1. destruct H1 as (n0 & A & H1).
    assert (A' : for_each (add_thing b k plane) [EPolygon i] ns = Done n0) by (cbn [for_each]; rewrite A; reflexivity).
    destruct (made_all _ _ _ _ _ _ A') as [F0 S0]; [intros x [<-|[]]; cbn; now apply nth_lt in R|exact F|].
    destruct (made_all _ _ _ _ _ _ H1 (on_edge b i g R) F0) as [F1 S1].
    destruct (IH _ _ H F1) as [F2 S2]. split; [exact F2|]. intros x. rewrite S2, S1, S0. split.
    + intros [[[H2|[<-|[]]]|H2]|(j & h & J & E & K)]; [now left| | |]; right; [exists i, g|exists i, g|exists j, h]; (split; [cbn; auto|split; auto]).
    + intros [H2|(j & h & [->|J] & E & K)]; [tauto| |right; now exists j, h]. rewrite R in E. injection E as ->. destruct K as [->|K]; [left; left; right; now left|left; right; exact K].
Qed.

Lemma angles_of_spec b p i : In i (angles_of b p) <-> exists a, nth_error (b_angles b) i = Some a /\ a_plane a = p.
Proof. unfold angles_of. rewrite in_positions_spec. split; intros (a & H & E); exists a; (split; [exact H|]); now apply plane_eqb_same. Qed.
Lemma polygons_of_spec b p i : In i (polygons_of b p) <-> exists g, nth_error (b_polygons b) i = Some g /\ g_plane g = p.
Proof. unfold polygons_of. rewrite in_positions_spec. split; intros (a & H & E); exists a; (split; [exact H|]); now apply plane_eqb_same. Qed.
Lemma in_seq_map {A} (f : nat -> A) n x : In x (map f (seq 0 n)) <-> exists i, i < n /\ x = f i.
Proof. rewrite in_map_iff. split; intros (i & H & E); exists i; [apply in_seq in E; split; [lia|now symmetry]|split; [now symmetry|apply in_seq; lia]]. Qed.

(** The plane of an object that belongs to one. *)
Definition in_plane (b : board) (p : Plane) (x : entity) : Prop :=
  match x with
  | EPolygon i => exists g, nth_error (b_polygons b) i = Some g /\ g_plane g = p
  | EEdge i => exists j g, nth_error (b_polygons b) j = Some g /\ g_plane g = p /\ In i (g_edges g)
  | EAngle i => exists a, nth_error (b_angles b) i = Some a /\ a_plane a = p
  | EInPolygon q i => q = p /\ i < length (on_plane (b_eip b) p)
  | _ => False
  end.
Definition in_axis (b : board) (a : Axis3) (x : entity) : Prop :=
  on_board b x /\ match x with
  | EColinear c _ | EClose c _ | EZone c _ | EPolicy c _ | EInterval c _ | ELine c _ => c = a
  | _ => False
  end.

Lemma plane_made b k ns ns' p : add_plane b k ns p = Done ns' -> Forall (made b k) ns -> Forall (made b k) ns' /\ (forall x, holds ns' x <-> holds ns x \/ in_plane b p x).
Proof.
  unfold add_plane. intros H F. apply bind_done in H. destruct H as (n1 & H1 & H).
  assert (F0 : Forall (made b k) (ns ++ [mk_node (Plane_ p) None []])) by (apply Forall_app; split; [exact F|constructor; [reflexivity|constructor]]).
  assert (S0 : forall x, holds (ns ++ [mk_node (Plane_ p) None []]) x <-> holds ns x).
  { intros x. split; intros (n & N & W); exists n; (split; [|exact W]); [|apply in_or_app; now left]. apply in_app_or in N. destruct N as [N|[<-|[]]]; [exact N|discriminate]. }
  destruct (polygons_made _ _ _ _ _ _ H1 F0) as [F1 S1].
  assert (O : forall x, In x (map (EInPolygon p) (seq 0 (length (on_plane (b_eip b) p))) ++ map EAngle (angles_of b p)) -> on_board b x).
  { intros x I. apply in_app_or in I. destruct I as [I|I]; [apply in_seq_map in I; destruct I as (i & L & ->); exact L|].
    apply in_map_iff in I. destruct I as (i & <- & I). apply angles_of_spec in I. destruct I as (a & E & _). cbn. now apply nth_lt in E. }
  destruct (made_all _ _ _ _ _ _ H O F1) as [F2 S2]. split; [exact F2|]. intros x. rewrite S2, S1, S0, in_app_iff, in_seq_map, in_map_iff. split.
  - intros [[H2|(i & g & I & E & [->|K])]|[(i & L & ->)|(i & <- & I)]]; [now left| | | |]; right.
    + apply polygons_of_spec in I. exact I.
    + apply polygons_of_spec in I. destruct I as (g' & E' & P). rewrite E in E'. injection E' as <-. apply in_map_iff in K. destruct K as (j & <- & K). now exists i, g.
    + split; [reflexivity|exact L].
    + apply angles_of_spec in I. exact I.
  - intros [H2|H2]; [tauto|]. destruct x as [i|i|i|a i|q i|a i|a i|a i|a i|a i]; try contradiction.
    + left. right. destruct H2 as (g & E & P). exists i, g. split; [apply polygons_of_spec; eauto|]. auto.
    + left. right. destruct H2 as (j & g & E & P & I). exists j, g. split; [apply polygons_of_spec; eauto|]. split; [exact E|right]. now apply in_map.
    + right. right. exists i. split; [reflexivity|]. now apply angles_of_spec.
    + right. left. destruct H2 as [-> L]. eauto.
Qed.

Lemma axis_made b k ns ns' a : add_axis b k ns a = Done ns' -> Forall (made b k) ns -> Forall (made b k) ns' /\ (forall x, holds ns' x <-> holds ns x \/ in_axis b a x).
Proof.
  unfold add_axis. intros H F.
  assert (F0 : Forall (made b k) (ns ++ [mk_node (Axis_ a) None []])) by (apply Forall_app; split; [exact F|constructor; [reflexivity|constructor]]).
  assert (S0 : forall x, holds (ns ++ [mk_node (Axis_ a) None []]) x <-> holds ns x).
  { intros x. split; intros (n & N & W); exists n; (split; [|exact W]); [|apply in_or_app; now left]. apply in_app_or in N. destruct N as [N|[<-|[]]]; [exact N|discriminate]. }
  match type of H with for_each _ ?l _ = _ => set (things := l) in * end.
  assert (I : forall x, In x things <-> in_axis b a x).
  { intros x. unfold things. rewrite !in_app_iff, !in_seq_map. unfold in_axis. split.
    - intros [H2|[H2|[H2|[H2|[H2|H2]]]]]; destruct H2 as (i & L & ->); (split; [exact L|reflexivity]).
    - intros [O K]. destruct x as [i|i|i|c i|q i|c i|c i|c i|c i|c i]; try contradiction; subst c; cbn in O;
        [left|right; left|right; right; right; left|right; right; left|right; right; right; right; left|right; right; right; right; right]; now exists i. }
  destruct (made_all _ _ _ _ _ _ H (fun x X => proj1 (proj1 (I x) X)) F0) as [F1 S1]. split; [exact F1|]. intros x. now rewrite S1, S0, I.
Qed.

Lemma in_some_plane_axis b x : on_board b x <-> (in_plane b PYZ x \/ in_plane b PZX x \/ in_plane b PXY x) \/ (in_axis b AX x \/ in_axis b AY x \/ in_axis b AZ x).
Proof.
  unfold in_axis. destruct x as [i|i|i|c i|q i|c i|c i|c i|c i|c i]; cbn [on_board in_plane].
  - split.
    + intros H. destruct (nth_error (b_polygons b) i) as [g|] eqn:E; [|apply nth_error_None in E; lia]. left. destruct (g_plane g) eqn:P; eauto 6.
    + intros [[H|[H|H]]|H]; [| | |tauto]; destruct H as (g & E & _); now apply nth_lt in E.
  - split.
    + intros (j & g & E & I). left. destruct (g_plane g) eqn:P; eauto 10.
    + intros [[H|[H|H]]|H]; [| | |tauto]; destruct H as (j & g & E & _ & I); eauto.
  - split.
    + intros H. destruct (nth_error (b_angles b) i) as [g|] eqn:E; [|apply nth_error_None in E; lia]. left. destruct (a_plane g) eqn:P; eauto 6.
    + intros [[H|[H|H]]|H]; [| | |tauto]; destruct H as (g & E & _); now apply nth_lt in E.
  - destruct c; split; tauto || (intros [H|[H|[H|H]]]; try tauto; destruct H; congruence).
  - destruct q; split; try (intros [[H|[H|H]]|H]; [| | |tauto]; destruct H; (congruence || assumption)); intros H; left; tauto.
  - destruct c; split; tauto || (intros [H|[H|[H|H]]]; try tauto; destruct H; congruence).
  - destruct c; split; tauto || (intros [H|[H|[H|H]]]; try tauto; destruct H; congruence).
  - destruct c; split; tauto || (intros [H|[H|[H|H]]]; try tauto; destruct H; congruence).
  - destruct c; split; tauto || (intros [H|[H|[H|H]]]; try tauto; destruct H; congruence).
  - destruct c; split; tauto || (intros [H|[H|[H|H]]]; try tauto; destruct H; congruence).
Qed.

Lemma nodes_made b k ns : all_nodes b k = Done ns -> Forall (made b k) ns /\ (forall x, holds ns x <-> on_board b x).
Proof.
  unfold all_nodes, all_planes, all_axes. cbn [for_each]. intros H.
  repeat (match goal with H : bind _ _ = Done _ |- _ => apply bind_done in H; destruct H as (? & ? & H) end).
  repeat (match goal with H : bind _ _ = Done _ |- _ => apply bind_done in H; destruct H as (? & ? & H) end).
  repeat (match goal with H : Done _ = Done _ |- _ => injection H as <- end).
  repeat match goal with H : bind _ _ = Done _ |- _ => apply bind_done in H; let x := fresh in destruct H as (x & ? & H) end.
  repeat (match goal with H : Done _ = Done _ |- _ => injection H; clear H; intros; subst end).
  assert (F : Forall (made b k) []) by constructor.
  assert (S0 : forall x, holds [] x <-> False) by (intros x; split; [intros (n & [] & _)|intros []]).
  repeat match goal with
  | H : add_plane b k ?ns _ = Done _, F : Forall (made b k) ?ns |- _ => let G := fresh "F" in let Q := fresh "Q" in destruct (plane_made _ _ _ _ _ H F) as [G Q]; clear H
  | H : add_axis b k ?ns _ = Done _, F : Forall (made b k) ?ns |- _ => let G := fresh "F" in let Q := fresh "Q" in destruct (axis_made _ _ _ _ _ H F) as [G Q]; clear H
  end.
  split; [assumption|]. intros x. rewrite in_some_plane_axis. repeat match goal with Q : forall x, holds ?n x <-> _ |- context [holds ?n ?y] => rewrite (Q y) end. tauto.
Qed.

(** ** Wires *)

Lemma last_some (l : list nat) : match last (map Some l) None with Some m => In m l | None => l = [] end.
Proof.
  induction l as [|x r IH]; cbn; [reflexivity|]. destruct r as [|y t]; cbn in *; [now left|].
  destruct (last (Some y :: map Some t) None) eqn:E; cbn in E; rewrite E in IH |- *; [now right|discriminate].
Qed.

Lemma index_some ns x m : index ns x = Some m -> exists n, nth_error ns m = Some n /\ nd_what n = Thing x.
Proof.
  unfold index. intros H. pose proof (last_some (positions (is_thing x) ns)) as L. rewrite H in L. apply in_positions_spec in L.
  destruct L as (n & E & T). exists n. split; [exact E|]. unfold is_thing in T. destruct (nd_what n); try discriminate. apply entity_eqb_eq in T. now subst.
Qed.
Lemma index_none ns x : index ns x = None -> ~ holds ns x.
Proof.
  unfold index. intros H (n & N & W). pose proof (last_some (positions (is_thing x) ns)) as L. rewrite H in L. apply In_nth_error in N. destruct N as (i & N).
  assert (I : In i (positions (is_thing x) ns)) by (apply in_positions_spec; exists n; split; [exact N|unfold is_thing; rewrite W; now apply entity_eqb_eq]).
  rewrite L in I. destruct I.
Qed.

(** The wires asked for by the entries [l] of node [n]. *)
Definition asked (ns : list node) (n : nat) (l : list (entity * nat)) (w : wire) : Prop :=
  w_to w = n /\ exists x, In (x, w_port w) l /\ index ns x = Some (w_from w).

Lemma wire_all ns n l : forall ws ws', for_each (wire_one ns n) l ws = Done ws' -> (NoDup ws -> NoDup ws') /\ forall w, In w ws' <-> In w ws \/ asked ns n l w.
Proof.
  induction l as [|[x q] r IH]; cbn [for_each]; intros ws ws' H.
  - injection H as <-. split; [auto|]. intros w. split; [now left|]. intros [H|(_ & x & [] & _)]. exact H.
  - apply bind_done in H. destruct H as (w1 & H1 & H). destruct (IH _ _ H) as [D1 I1].
    assert (Q : (NoDup ws -> NoDup w1) /\ forall w, In w w1 <-> In w ws \/ (w_to w = n /\ w_port w = q /\ index ns x = Some (w_from w))).
    { unfold wire_one in H1. cbn [fst snd] in H1. destruct (index ns x) as [m|] eqn:E.
      - apply bind_done in H1. destruct H1 as (o & R & H1). destruct (has_output o); [|discriminate].
        destruct (existsb (wire_eqb (mk_wire m n q)) ws) eqn:X; injection H1 as <-.
        + split; [auto|]. intros w. split; [now left|]. intros [J|(A1 & A2 & A3)]; [exact J|]. injection A3 as ->. apply existsb_exists in X. destruct X as (v & V & W).
          apply wire_eqb_eq in W. subst v. destruct w as [f t p]; cbn in *; subst; exact V.
        + split.
          * intros D. apply NoDup_rev in D. rewrite <- (rev_involutive (ws ++ _)), rev_app_distr. apply NoDup_rev. cbn. constructor; [|exact D].
            intros J. apply in_rev in J. apply Bool.not_true_iff_false in X. apply X. apply existsb_exists. exists (mk_wire m n q). split; [exact J|now apply wire_eqb_eq].
          * intros w. rewrite in_app_iff. cbn. split; (intros [J|J]; [now left|right]).
            -- destruct J as [<-|[]]. auto.
            -- destruct J as (A1 & A2 & A3). injection A3 as ->. left. destruct w; cbn in *; subst; reflexivity.
      - injection H1 as <-. split; [auto|]. intros w. split; [now left|]. intros [J|(_ & _ & J)]; [exact J|discriminate]. }
    destruct Q as [D2 I2]. split; [auto|]. intros w. rewrite I1, I2. unfold asked. split.
    + intros [[J|(A1 & A2 & A3)]|(A1 & y & A2 & A3)]; [now left|right|right]; (split; [exact A1|]).
      * exists x. split; [left; congruence|exact A3].
      * exists y. split; [now right|exact A3].
    + intros [J|(A1 & y & [A2|A2] & A3)]; [tauto| |].
      * injection A2 as -> ->. left. right. auto.
      * right. split; [exact A1|]. now exists y.
Qed.

Definition asked_by (ns : list node) (w : wire) : Prop := exists nd, nth_error ns (w_to w) = Some nd /\ asked ns (w_to w) (nd_to_wire nd) w.

Lemma wire_nodes ns l : forall ws ws', for_each (wire_node ns) l ws = Done ws' ->
  (NoDup ws -> NoDup ws') /\ forall w, In w ws' <-> In w ws \/ (In (w_to w) l /\ asked_by ns w).
Proof.
  induction l as [|n r IH]; cbn [for_each]; intros ws ws' H.
  - injection H as <-. split; [auto|]. intros w. split; [now left|]. intros [J|([] & _)]. exact J.
  - apply bind_done in H. destruct H as (w1 & H1 & H). unfold wire_node in H1. apply bind_done in H1. destruct H1 as (nd & R & H1). apply read_some in R.
    destruct (wire_all _ _ _ _ _ H1) as [D1 I1]. destruct (IH _ _ H) as [D2 I2]. split; [auto|]. intros w. rewrite I2, I1. split.
    + intros [[J|J]|[J K]]; [now left|right|right; split; [now right|exact K]]. destruct J as (<- & J). split; [now left|]. exists nd. split; [exact R|]. split; [reflexivity|exact J].
    + intros [J|[[J|J] (nd' & E & K)]]; [tauto| |right; split; [exact J|now exists nd']]. subst n. left. right. rewrite R in E. injection E as <-. exact K.
Qed.

Lemma wire_kinds ns l : forall ws ws', for_each (wire_kind ns) l ws = Done ws' ->
  (NoDup ws -> NoDup ws') /\ forall w, In w ws' <-> In w ws \/ ((exists q nd, In q l /\ nth_error ns (w_to w) = Some nd /\ is_kind q nd = true) /\ asked_by ns w).
Proof.
  induction l as [|q r IH]; cbn [for_each]; intros ws ws' H.
  - injection H as <-. split; [auto|]. intros w. split; [now left|]. intros [J|((q & nd & [] & _) & _)]. exact J.
  - apply bind_done in H. destruct H as (w1 & H1 & H). unfold wire_kind in H1. destruct (wire_nodes _ _ _ _ H1) as [D1 I1]. destruct (IH _ _ H) as [D2 I2].
    split; [auto|]. intros w. rewrite I2, I1, in_positions_spec. split.
    + intros [[J|((nd & E & T) & K)]|((q' & nd & Q & E & T) & K)]; [now left|right|right]; (split; [|exact K]); [exists q, nd|exists q', nd]; cbn; auto.
    + intros [J|((q' & nd & [<-|Q] & E & T) & K)]; [tauto| |right; split; [now exists q', nd|exact K]]. left. right. split; [now exists nd|exact K].
Qed.

Lemma populate_wires b k sc : populate b k = Done sc -> NoDup (sc_wires sc) /\ forall w, In w (sc_wires sc) <-> asked_by (sc_nodes sc) w.
Proof.
  unfold populate. intros H. apply bind_done in H. destruct H as (ns & N & H). apply bind_done in H. destruct H as (ws & W & H). injection H as <-. cbn.
  destruct (wire_kinds _ _ _ _ W) as [D I]. split; [apply D; constructor|]. intros w. rewrite I. split; [intros [[]|[_ J]]; exact J|]. intros J. right. split; [|exact J].
  destruct J as (nd & E & _ & x & X & _). destruct (nodes_made _ _ _ N) as [F _]. rewrite Forall_forall in F. pose proof (F nd (nth_error_In _ _ E)) as M. unfold made in M.
  destruct (nd_what nd) as [p|a|y] eqn:Y; [rewrite M in X; destruct X..|]. destruct M as [_ M].
  assert (kind_of y <> KPolygon).
  { destruct y; cbn; try discriminate. cbn in M. apply bind_done in M. destruct M as (g & _ & M). injection M as M. rewrite <- M in X. destruct X. }
  exists (kind_of y), nd. unfold is_kind. rewrite Y. split; [destruct (kind_of y); cbn; tauto|]. split; [exact E|]. destruct (kind_of y); reflexivity.
Qed.

Lemma populate_nodes b k sc : populate b k = Done sc -> all_nodes b k = Done (sc_nodes sc).
Proof. unfold populate. intros H. apply bind_done in H. destruct H as (ns & N & H). apply bind_done in H. destruct H as (ws & W & H). injection H as <-. exact N. Qed.

(** Wires are links between objects of the board. *)
Lemma wires_are_links b k sc : populate b k = Done sc -> forall x y,
  (exists m n, stands_for sc m x /\ stands_for sc n y /\ wired sc m n) <-> (on_board b x /\ on_board b y /\ comes_from b k y x).
Proof.
  intros P x y. destruct (populate_wires _ _ _ P) as [_ W]. destruct (nodes_made _ _ _ (populate_nodes _ _ _ P)) as [F HS]. rewrite Forall_forall in F. split.
  - intros (m & n & (nm & Em & Xm) & (nn & En & Yn) & (w & I & <- & <-)). apply W in I. destruct I as (nd & E & _ & z & Z & J). rewrite En in E. injection E as <-.
    apply index_some in J. destruct J as (nm' & E & T). rewrite Em in E. injection E as <-. rewrite Xm in T. injection T as <-.
    pose proof (F nn (nth_error_In _ _ En)) as M. unfold made in M. rewrite Yn in M. destruct M as [O M]. split; [apply HS; exists nm; split; [now apply nth_error_In in Em|exact Xm]|].
    split; [exact O|]. apply (to_wire_from _ _ _ _ _ M). eauto.
  - intros (Ox & Oy & C). apply HS in Ox. apply HS in Oy. destruct Oy as (nn & Nn & Yn). pose proof (F nn Nn) as M. unfold made in M. rewrite Yn in M. destruct M as [_ M].
    apply (to_wire_from _ _ _ _ _ M) in C. destruct C as (q & C). destruct (index (sc_nodes sc) x) as [m|] eqn:J; [|now apply index_none in J].
    destruct (index_some _ _ _ J) as (nm & Em & Xm). apply In_nth_error in Nn. destruct Nn as (n & En). exists m, n. split; [now exists nm|]. split; [now exists nn|].
    exists (mk_wire m n q). split; [|auto]. apply W. exists nn. cbn. split; [exact En|]. split; [reflexivity|]. exists x. auto.
Qed.

(** ** Nothing is read in vain *)

Lemma to_wire_ends b k x : on_board b x -> (forall i, x = EEdge i -> i < length (b_edges b)) -> exists l, to_wire b k x = Done l.
Proof.
  intros O E. destruct x as [i|i|i|c i|q i|c i|c i|c i|c i|c i]; cbn [to_wire on_board] in *;
    try (destruct (read_lt _ _ O) as (z & ->); cbn; eauto). destruct (read_lt _ _ (E i eq_refl)) as (z & ->). cbn. eauto.
Qed.

Lemma things_end b k inside l : (forall x, In x l -> exists w, to_wire b k x = Done w) -> forall ns, exists ns', for_each (add_thing b k inside) l ns = Done ns'.
Proof.
  induction l as [|x r IH]; intros H ns; cbn [for_each]; [eauto|]. destruct (H x (or_introl eq_refl)) as (w & W).
  assert (A : exists n1, add_thing b k inside ns x = Done n1) by (unfold add_thing; rewrite W; cbn; eauto). destruct A as (n1 & ->). cbn [bind].
  apply IH. intros y Y. apply H. now right.
Qed.

Definition edges_there (b : board) : Prop := forall j g i, nth_error (b_polygons b) j = Some g -> In i (g_edges g) -> i < length (b_edges b).

Lemma wired_end b k x : edges_there b -> on_board b x -> exists l, to_wire b k x = Done l.
Proof. intros E O. apply to_wire_ends; [exact O|]. intros i ->. destruct O as (j & g & H & I). exact (E j g i H I). Qed.

Lemma for_each_ends {A B} (f : B -> A -> run B) l : (forall b x, In x l -> exists b', f b x = Done b') -> forall b, exists b', for_each f l b = Done b'.
Proof.
  induction l as [|x r IH]; intros H b; cbn [for_each]; [eauto|]. destruct (H b x (or_introl eq_refl)) as (b1 & ->). cbn [bind]. apply IH. intros c y Y. apply H. now right.
Qed.

Lemma all_nodes_end b k : edges_there b -> exists ns, all_nodes b k = Done ns.
Proof.
  intros E. unfold all_nodes.
  assert (P : forall ns, exists ns', for_each (add_plane b k) all_planes ns = Done ns').
  { apply for_each_ends. intros ns p _. unfold add_plane.
    destruct (for_each_ends (add_polygon_node b k (length ns)) (polygons_of b p)) with (b := ns ++ [mk_node (Plane_ p) None []]) as (n1 & ->).
    { intros n0 i I. apply polygons_of_spec in I. destruct I as (g & G & _). unfold add_polygon_node. rewrite (proj2 (read_some _ _ _) G). cbn [bind].
      unfold add_thing at 1. destruct (wired_end b k (EPolygon i) E) as (w & ->); [cbn; now apply nth_lt in G|]. cbn [bind]. apply things_end. intros x X.
      apply wired_end; [exact E|]. exact (on_edge b i g G x X). }
    cbn [bind]. apply things_end. intros x X. apply wired_end; [exact E|]. apply in_app_or in X. destruct X as [X|X]; [apply in_seq_map in X; destruct X as (i & L & ->); exact L|].
    apply in_map_iff in X. destruct X as (i & <- & X). apply angles_of_spec in X. destruct X as (a & H & _). cbn. now apply nth_lt in H. }
  destruct (P []) as (ns & ->). cbn [bind]. apply for_each_ends. intros n0 a _. unfold add_axis. apply things_end. intros x X. apply wired_end; [exact E|].
  repeat (apply in_app_or in X; destruct X as [X|X]); apply in_seq_map in X; destruct X as (i & L & ->); exact L.
Qed.

(** Nothing comes from a line. *)
Lemma not_from_line b k y x : links_sound b k -> on_board b y -> comes_from b k y x -> kind_of x <> KLine.
Proof.
  intros (L & _) O C. destruct C; cbn; try discriminate.
  - destruct c; discriminate.
  - destruct (L a i x) as [_ K]; [now apply nth_lt in H|assumption|]. destruct x; cbn in *; (contradiction || discriminate).
Qed.

Lemma populate_ends b k : edges_there b -> links_sound b k -> exists sc, populate b k = Done sc.
Proof.
  intros E K. unfold populate. destruct (all_nodes_end b k E) as (ns & N). rewrite N. cbn [bind]. destruct (nodes_made _ _ _ N) as [F HS]. rewrite Forall_forall in F.
  enough (exists ws, for_each (wire_kind ns) wired_kinds [] = Done ws) as (ws & ->) by (cbn; eauto).
  apply for_each_ends. intros ws q _. unfold wire_kind. apply for_each_ends. intros ws1 n I. apply in_positions_spec in I. destruct I as (nd & En & T).
  unfold wire_node. rewrite (proj2 (read_some _ _ _) En). cbn [bind]. apply for_each_ends. intros ws2 [x p] X. unfold wire_one. cbn [fst snd].
  destruct (index ns x) as [m|] eqn:J; [|eauto]. destruct (index_some _ _ _ J) as (nm & Em & Xm). rewrite (proj2 (read_some _ _ _) Em). cbn [bind].
  pose proof (F nd (nth_error_In _ _ En)) as M. unfold made in M. unfold is_kind in T. destruct (nd_what nd) as [?|?|y]; try discriminate. destruct M as [O M].
  assert (C : comes_from b k y x) by (apply (to_wire_from _ _ _ _ _ M); eauto). apply not_from_line in C; [|exact K|exact O].
  unfold has_output. rewrite Xm. destruct x; cbn in C; try contradiction; destruct (existsb _ ws2); eauto.
Qed.
