(** From a document to a board, and back. *)
From Coq Require Import List Arith Bool QArith Qabs ZArith String Lia Lqa.
From Verif Require Import IntervalModel IntervalProofs ManagerModel GeomModel GeomSpec GeomProofs.
From Verif Require Import BoardModel BoardSpec InfraModel InfraSpec InfraNumberProofs InfraProofs.
Import ListNotations.
Open Scope Q_scope.

(** ** Primitives whatever happens *)

Definition polygonal (n : xml) : Prop := In (name_of n) ["LinPoly"; "Polygon"; "Curve"]%string.

Lemma polygonal_dec n : polygonal n \/ ~ polygonal n.
Proof. unfold polygonal. destruct (in_dec string_dec (name_of n) ["LinPoly"; "Polygon"; "Curve"]%string); auto. Qed.

Lemma vertexless uint_max size_max circle pp m s n : polygonal n -> named "Vertex" (children_of n) = [] ->
  parse_primitive uint_max size_max circle pp m s n = Done s \/ parse_primitive uint_max size_max circle pp m s n = Dangling.
Proof.
  intros P V. unfold parse_primitive. destruct (children_of (child "Transformation" n)); [|now left].
  destruct P as [<-|[<-|[<-|[]]]]; cbn.
  - unfold parse_linpoly. rewrite V. cbv zeta. destruct (to_plane _); auto.
  - unfold parse_polygon. rewrite V. cbv zeta. destruct (to_plane _); [destruct (to_axis _)|]; auto.
  - unfold parse_curve. rewrite V. destruct (with_yz pp), (with_zx pp), (with_xy pp); auto.
Qed.

Lemma primitive_outcome uint_max size_max circle pp m s n : (forall c r, circle c r <> []) ->
  parse_primitive uint_max size_max circle pp m s n = Dangling
  \/ exists s' gs lines, parse_primitive uint_max size_max circle pp m s n = Done s' /\ drew gs lines s s' /\ Forall (some_of m) gs.
Proof.
  intros C. destruct (named "Vertex" (children_of n)) as [|v l] eqn:V.
  - destruct (polygonal_dec n) as [P|P].
    + destruct (vertexless uint_max size_max circle pp m s n P V) as [E|E]; [right|now left].
      exists s, [], no_line. split; [assumption|]. split; [apply drew_refl|constructor].
    + right. apply primitive_ends; [assumption|]. intros I. now destruct P.
  - right. apply primitive_ends; [assumption|]. intros _. now rewrite V.
Qed.

Lemma for_each_outcome {A : Type} (f : builder -> A -> run builder) (P : polygon -> Prop) l :
  (forall s x, In x l -> f s x = Dangling \/ exists s' gs lines, f s x = Done s' /\ drew gs lines s s' /\ Forall P gs) ->
  forall s, for_each f l s = Dangling \/ exists s' gs lines, for_each f l s = Done s' /\ drew gs lines s s' /\ Forall P gs.
Proof.
  induction l as [|x l IH]; intros H s; cbn [for_each].
  - right. exists s, [], no_line. split; [reflexivity|]. split; [apply drew_refl|constructor].
  - destruct (H s x (or_introl eq_refl)) as [->|(s1 & g1 & l1 & -> & D1 & F1)]; [now left|]. cbn [bind].
    destruct (IH (fun s x I => H s x (or_intror I)) s1) as [->|(s2 & g2 & l2 & -> & D2 & F2)]; [now left|].
    right. eexists s2, (g1 ++ g2), _. split; [reflexivity|]. split; [eapply drew_trans; eassumption|now apply Forall_app].
Qed.

Lemma properties_outcome uint_max size_max circle pp l : (forall c r, circle c r <> []) ->
  forall s, parse_properties uint_max size_max circle pp l s = Dangling
  \/ exists s' gs lines, parse_properties uint_max size_max circle pp l s = Done s' /\ drew gs lines s s' /\ Forall (fun g => g_material g <> None) gs.
Proof.
  intros C. unfold parse_properties. apply for_each_outcome. intros s x _. destruct (parse_property x) as [m|].
  - destruct (for_each_outcome (parse_primitive uint_max size_max circle pp m) (some_of m) (children_of (child "Primitives" x)) (fun s n _ => primitive_outcome uint_max size_max circle pp m s n C) s)
      as [->|(s1 & g1 & l1 & -> & D1 & F1)]; [now left|].
    right. exists s1, g1, l1. split; [reflexivity|]. split; [assumption|]. eapply Forall_impl; [|exact F1]. intros g (k & M & _). congruence.
  - right. exists s, [], no_line. split; [reflexivity|]. split; [apply drew_refl|constructor].
Qed.

Lemma for_each_ext {A B : Type} (f g : B -> A -> run B) l : (forall b x, f b x = g b x) -> forall b, for_each f l b = for_each g l b.
Proof. intros H. induction l as [|x l IH]; intros b; cbn; [reflexivity|]. rewrite H. destruct (g b x); cbn; [apply IH|reflexivity|reflexivity]. Qed.

(** ** Steps of the parser *)

Lemma parse_axes_adds unit n s s' : parse_axes unit n s = Some s' ->
  bd_board s' = bd_board s /\ bd_params s' = bd_params s
  /\ exists f : Axis3 -> list Q, forall ax, on_axis (bd_fixed s') ax = on_axis (bd_fixed s) ax ++ f ax /\ reads unit (axis_texts n ax) (f ax).
Proof.
  unfold parse_axes. destruct (parse_lines unit AX _ s) as [s1|] eqn:E1; [|discriminate].
  destruct (parse_lines unit AY _ s1) as [s2|] eqn:E2; [|discriminate]. intros E3.
  destruct (parse_lines_adds _ _ _ _ _ E1) as (x & F1 & B1 & P1 & A1 & O1).
  destruct (parse_lines_adds _ _ _ _ _ E2) as (y & F2 & B2 & P2 & A2 & O2).
  destruct (parse_lines_adds _ _ _ _ _ E3) as (z & F3 & B3 & P3 & A3 & O3).
  split; [congruence|]. split; [congruence|].
  exists (fun ax => match ax with AX => x | AY => y | AZ => z end). intros [| |]; (split; [|assumption]).
  - now rewrite O3, O2, A1 by discriminate.
  - now rewrite O3, A2, O1 by discriminate.
  - now rewrite A3, O2, O1 by discriminate.
Qed.

Lemma parse_axes_fails unit n s : parse_axes unit n s = None <-> exists ax t, In t (axis_texts n ax) /\ from_chars t = None.
Proof.
  unfold parse_axes. split.
  - destruct (parse_lines unit AX _ s) as [s1|] eqn:E1; [destruct (parse_lines unit AY _ s1) as [s2|] eqn:E2|]; intros E.
    + apply parse_lines_fails in E as (t & I & F). now exists AZ, t.
    + apply parse_lines_fails in E2 as (t & I & F). now exists AY, t.
    + apply parse_lines_fails in E1 as (t & I & F). now exists AX, t.
  - intros (ax & t & I & F).
    destruct (parse_lines unit AX _ s) as [s1|] eqn:E1; [|reflexivity].
    destruct (parse_lines unit AY _ s1) as [s2|] eqn:E2; [|reflexivity].
    destruct ax; [enough (parse_lines unit AX (split (child_value "XLines" n)) s = None) by congruence
                 |enough (parse_lines unit AY (split (child_value "YLines" n)) s1 = None) by congruence|]; apply parse_lines_fails; eauto.
Qed.

(** ** The frame of primitives: what was asked for before, the parameters and the
    background do not matter *)

Section Frame.
Variables (d : domain_params) (bg : option Mat) (pre : Axis3 -> list Q).
Definition over (s : builder) : builder :=
  let b := bd_board s in
  mk_builder (mk_board (b_polygons b) (b_edges b) (b_angles b) bg (b_ce b) (b_eip b) (b_zones b) (b_axes b))
    (mk_space (pre AX ++ on_axis (bd_fixed s) AX) (pre AY ++ on_axis (bd_fixed s) AY) (pre AZ ++ on_axis (bd_fixed s) AZ)) d.
Definition run_over (r : run builder) : run builder := match r with Done s => Done (over s) | Running => Running | Dangling => Dangling end.
Definition natural (f : builder -> run builder) : Prop := forall s, f (over s) = run_over (f s).

Lemma natural_done : natural (fun s => Done s). Proof. now intros s. Qed.
Lemma natural_dangling : natural (fun _ => Dangling). Proof. now intros s. Qed.
Lemma natural_bind f g : natural f -> natural g -> natural (fun s => let! s := f s in g s).
Proof. intros F G s. rewrite F. destruct (f s); cbn; [apply G|reflexivity|reflexivity]. Qed.
Lemma natural_when c f : natural f -> natural (when c f).
Proof. intros F s. destruct c; [apply F|reflexivity]. Qed.
Lemma natural_shape p m pr z l : natural (add_shape p m pr z l).
Proof.
  intros s. unfold add_shape, add_polygon. destruct (detect_bounding l); try reflexivity. destruct (polygon_edges l); reflexivity.
Qed.
Lemma natural_box p m pr z a b : natural (add_box p m pr z a b).
Proof. apply natural_shape. Qed.
Lemma over_fixed ax x s : add_fixed ax x (over s) = over (add_fixed ax x s).
Proof. unfold add_fixed, over. destruct ax; cbn; now rewrite ?app_assoc. Qed.
Lemma natural_for_each {A : Type} (f : builder -> A -> run builder) l : (forall x, natural (fun s => f s x)) -> natural (for_each f l).
Proof.
  intros F. induction l as [|x l IH]; intros s; cbn [for_each]; [reflexivity|]. rewrite F. destruct (f s x); cbn; [apply IH|reflexivity|reflexivity].
Qed.
Lemma natural_run {A : Type} (r : run A) (f : A -> builder -> run builder) : (forall a, natural (f a)) -> natural (fun s => let! a := r in f a s).
Proof. intros F s. destruct r; cbn; [apply F|reflexivity|reflexivity]. Qed.
Lemma natural_three c1 c2 c3 f1 f2 f3 : natural f1 -> natural f2 -> natural f3 ->
  natural (fun s => let! s := when c1 f1 s in let! s := when c2 f2 s in when c3 f3 s).
Proof.
  intros F1 F2 F3. apply (natural_bind (when c1 f1) (fun s => let! s := when c2 f2 s in when c3 f3 s)); [now apply natural_when|].
  apply (natural_bind (when c2 f2) (when c3 f3)); now apply natural_when.
Qed.
Lemma natural_two c1 c2 f1 f2 : natural f1 -> natural f2 -> natural (fun s => let! s := when c1 f1 s in when c2 f2 s).
Proof. intros F1 F2. apply (natural_bind (when c1 f1) (when c2 f2)); now apply natural_when. Qed.

Lemma natural_box3 pp m pr a b : natural (add_box3 pp m pr a b).
Proof. apply natural_three; apply natural_box. Qed.

Lemma natural_primitive uint_max size_max circle pp m n : natural (fun s => parse_primitive uint_max size_max circle pp m s n).
Proof.
  unfold parse_primitive. destruct (children_of (child "Transformation" n)); [|apply natural_done]. cbv beta zeta.
  generalize (parse_priority uint_max size_max n m) as pr. intros pr.
  destruct (String.eqb _ _); [apply natural_box3|].
  destruct (String.eqb _ _); [apply natural_for_each; intros x; apply natural_box3|].
  destruct (String.eqb _ _).
  { unfold parse_linpoly. destruct (to_plane _) as [p|]; [|apply natural_done].
    apply natural_run. intros b. apply natural_bind; [apply natural_shape|].
    destruct (Qeq_bool _ _); [apply natural_done|]. destruct p; apply natural_two; apply natural_box. }
  destruct (String.eqb _ _).
  { unfold parse_polygon. destruct (to_plane _) as [p|]; [|apply natural_done]. destruct (to_axis _) as [ax|]; [|apply natural_done].
    apply natural_run. intros b. apply natural_bind; [apply natural_shape|]. intros s. cbn. f_equal. apply over_fixed. }
  destruct (String.eqb _ _); [apply natural_three; apply natural_shape|].
  destruct (String.eqb _ _).
  { unfold parse_cylinder. cbv zeta. destruct (_ && _)%bool; [apply natural_three; [apply natural_shape|apply natural_box..]|].
    destruct (_ && _)%bool; [apply natural_three; [apply natural_shape|apply natural_box..]|].
    destruct (_ && _)%bool; [apply natural_three; [apply natural_shape|apply natural_box..]|]. apply natural_done. }
  destruct (String.eqb _ _).
  { intros s. unfold parse_point. cbn. f_equal. destruct (with_yz pp), (with_zx pp), (with_xy pp); now rewrite ?over_fixed. }
  destruct (String.eqb _ _); [|apply natural_done].
  apply natural_three; apply natural_run; intros z; apply natural_shape.
Qed.

Lemma natural_properties uint_max size_max circle pp l : natural (parse_properties uint_max size_max circle pp l).
Proof.
  apply natural_for_each. intros x. destruct (parse_property x); [|apply natural_done]. apply natural_for_each. intros n. apply natural_primitive.
Qed.
End Frame.

(** ** The whole document *)

Lemma structure_unique doc a b : structure doc a -> structure doc b -> a = b.
Proof. unfold structure. intros [A|[A A']] [B|[B B']]; try congruence; [rewrite B in A|rewrite A in B]; discriminate. Qed.

Lemma hd_or_null l n : hd_error l = Some n -> or_null (hd_error l) = n.
Proof. now intros ->. Qed.

(** What [parse] does, with the path it took. *)
Definition path_of (doc : list xml) : list string :=
  match select ["openEMS"; "ContinuousStructure"]%string doc with
  | _ :: _ => ["openEMS"; "ContinuousStructure"]%string
  | [] => ["ContinuousStructure"]%string
  end.
Definition properties_of (doc : list xml) : list xml := children_of (or_null (hd_error (select (path_of doc ++ ["Properties"]%string) doc))).
Lemma parse_unfold uint_max size_max circle pp doc csx : structure doc csx ->
  hd_error (select (path_of doc) doc) = Some csx
  /\ parse uint_max size_max circle pp doc =
  match (if read_oemsh_params pp then parse_oemsh uint_max (or_null (hd_error (select ["OpenEMSH"]%string doc))) new_builder
         else Some new_builder) with
  | None => Done None
  | Some s =>
      match parse_grid uint_max pp csx s with
      | None => Done None
      | Some s =>
          let! s := parse_properties uint_max size_max circle pp (properties_of doc)
            (set_background (parse_property (child "BackgroundMaterial" csx)) s) in
          Done (Some s)
      end
  end.
Proof.
  unfold properties_of, path_of. intros [H|[N H]].
  - destruct (select ["openEMS"; "ContinuousStructure"]%string doc) as [|x l] eqn:E; [discriminate|].
    split; [now rewrite E|]. unfold parse.
    destruct (if read_oemsh_params pp then _ else _) as [s|]; [|reflexivity].
    rewrite E. cbv beta zeta. rewrite E. injection H as ->. reflexivity.
  - rewrite N. split; [assumption|]. unfold parse.
    destruct (if read_oemsh_params pp then _ else _) as [s|]; [|reflexivity]. rewrite N.
    destruct (select ["ContinuousStructure"]%string doc) as [|x l] eqn:E; [discriminate|].
    cbv beta zeta. rewrite E. injection H as ->. reflexivity.
Qed.

Lemma no_structure uint_max size_max circle pp doc : (forall csx, ~ structure doc csx) -> parse uint_max size_max circle pp doc = Done None.
Proof.
  intros N. unfold parse. destruct (if read_oemsh_params pp then _ else _) as [s|]; [|reflexivity].
  destruct (select ["openEMS"; "ContinuousStructure"]%string doc) as [|x l] eqn:E.
  - destruct (select ["ContinuousStructure"]%string doc) as [|x l] eqn:E'; [reflexivity|].
    destruct (N x). right. now rewrite E'.
  - destruct (N x). left. now rewrite E.
Qed.

Lemma structure_dec doc : (exists csx, structure doc csx) \/ forall csx, ~ structure doc csx.
Proof.
  unfold structure. destruct (select ["openEMS"; "ContinuousStructure"]%string doc) as [|x l]; [|left; exists x; now left].
  destruct (select ["ContinuousStructure"]%string doc) as [|x l].
  - right. intros csx [H|[_ H]]; discriminate.
  - left. exists x. now right.
Qed.

Lemma parse_grid_some uint_max pp csx s s' : parse_grid uint_max pp csx s = Some s' ->
  bd_board s' = bd_board s
  /\ (let d := bd_params s in let d' := bd_params s' in params_of d' = params_of d /\ diag_params_of d' = diag_params_of d
      /\ diagonal_lmin d' = diagonal_lmin d /\ input_fixed d' = input_fixed d)
  /\ exists f : Axis3 -> list Q, forall ax, on_axis (bd_fixed s') ax = on_axis (bd_fixed s) ax ++ f ax
      /\ if keep_old_mesh pp then reads (as_uint uint_max "DeltaUnit" 1 csx) (axis_texts (child "RectilinearGrid" csx) ax) (f ax) else f ax = [].
Proof.
  unfold parse_grid. destruct (Nat.eqb _ 0); [|discriminate]. destruct (keep_old_mesh pp).
  - intros E. apply parse_axes_adds in E as (B & P & f & F). split; [exact B|]. split; [rewrite P; now repeat split|]. exists f. exact F.
  - intros E. injection E as <-. split; [reflexivity|]. split; [now repeat split|]. exists (fun _ => []). intros ax. split; [now rewrite app_nil_r|reflexivity].
Qed.

Lemma parse_oemsh_some uint_max n s s' : parse_oemsh uint_max n s = Some s' ->
  bd_board s' = bd_board s
  /\ exists f : Axis3 -> list Q, forall ax, on_axis (bd_fixed s') ax = on_axis (bd_fixed s) ax ++ f ax
      /\ let fixed := child "FixedMeshlines" n in reads (as_uint uint_max "DeltaUnit" 1 fixed) (axis_texts fixed ax) (f ax).
Proof. unfold parse_oemsh. intros E. apply parse_axes_adds in E as (B & P & f & F). split; [exact B|]. exists f. exact F. Qed.

(** The state when the primitives are read is a new one with other parameters, another
    background and some lines asked for. *)
Lemma before_primitives s : bd_board s = empty_board None -> forall m,
  set_background m s = over (bd_params s) m (on_axis (bd_fixed s)) new_builder.
Proof.
  destruct s as [b f d]. cbn. intros ->. intros m. unfold set_background, over. cbn. destruct f. cbn. now rewrite !app_nil_r.
Qed.

Theorem parse_done uint_max size_max circle pp doc s : parse uint_max size_max circle pp doc = Done (Some s) ->
  exists csx s0 l1 l2, structure doc csx
  /\ parse_properties uint_max size_max circle pp (properties_of doc) new_builder = Done s0
  /\ s = over (bd_params s) (parse_property (child "BackgroundMaterial" csx)) (fun ax => l1 ax ++ l2 ax) s0
  /\ (forall ax, if read_oemsh_params pp
        then let fixed := child "FixedMeshlines" (or_null (hd_error (select ["OpenEMSH"]%string doc))) in
             reads (as_uint uint_max "DeltaUnit" 1 fixed) (axis_texts fixed ax) (l1 ax)
        else l1 ax = [])
  /\ (forall ax, if keep_old_mesh pp
        then reads (as_uint uint_max "DeltaUnit" 1 csx) (axis_texts (child "RectilinearGrid" csx) ax) (l2 ax)
        else l2 ax = []).
Proof.
  intros E. destruct (structure_dec doc) as [(csx & S)|N]; [|rewrite (no_structure _ _ _ _ _ N) in E; discriminate].
  destruct (parse_unfold uint_max size_max circle pp doc csx S) as (H & U). rewrite U in E. clear U.
  destruct (if read_oemsh_params pp then _ else _) as [s1|] eqn:E1; [|discriminate].
  destruct (parse_grid uint_max pp csx s1) as [s2|] eqn:E2; [|discriminate].
  assert (B1 : bd_board s1 = empty_board None /\ exists f, forall ax, on_axis (bd_fixed s1) ax = f ax
     /\ if read_oemsh_params pp
        then let fixed := child "FixedMeshlines" (or_null (hd_error (select ["OpenEMSH"]%string doc))) in
             reads (as_uint uint_max "DeltaUnit" 1 fixed) (axis_texts fixed ax) (f ax)
        else f ax = []).
  { destruct (read_oemsh_params pp).
    - apply parse_oemsh_some in E1 as (B & f & F). split; [exact B|]. exists f. intros ax. destruct (F ax) as [F1 F2]. split; [|exact F2].
      rewrite F1. now destruct ax.
    - injection E1 as <-. split; [reflexivity|]. exists (fun _ => []). intros []; now split. }
  destruct B1 as (B1 & l1 & F1). apply parse_grid_some in E2 as (B2 & _ & l2 & F2).
  rewrite (before_primitives s2) in E by congruence.
  rewrite (natural_properties _ _ _ uint_max size_max circle pp) in E.
  destruct (parse_properties uint_max size_max circle pp _ new_builder) as [s0| |] eqn:E3; try discriminate.
  cbn in E. injection E as <-. exists csx, s0, l1, l2. split; [exact S|]. split; [reflexivity|].
  split; [|split; intros ax; [apply F1|apply F2]].
  unfold over. cbn [bd_params]. f_equal.
  rewrite !(proj1 (F2 _)), !(proj1 (F1 _)). reflexivity.
Qed.

(** ** Elements of the document *)

Lemma inside_trans n m l : inside m l -> In n (children_of m) -> inside n l.
Proof.
  induction 1 as [l I|k l I J IH]; intros H.
  - now apply (inside_below n m l I), inside_here.
  - apply (inside_below n k l I). now apply IH.
Qed.

Lemma inside_or_null n l : In n (children_of (or_null (hd_error l))) -> exists m, In m l /\ In n (children_of m).
Proof. destruct l as [|m l]; [intros []|]. intros I. exists m. split; [now left|assumption]. Qed.

Lemma named_in x n l : In n (named x l) <-> In n l /\ name_of n = x.
Proof. unfold named, is_named. rewrite filter_In, String.eqb_eq. reflexivity. Qed.

Lemma select_inside path : forall doc all n, (forall m, In m doc -> inside m all) -> In n (select path doc) -> inside n all.
Proof.
  induction path as [|x [|y r] IH]; intros doc all n H I; [destruct I| |].
  - apply named_in in I as [I _]. now apply H.
  - change (select (x :: y :: r) doc) with (select (y :: r) (flat_map children_of (named x doc))) in I.
    eapply IH; [|exact I]. intros m J. apply in_flat_map in J as (k & K & J). apply named_in in K as [K _].
    eapply inside_trans; [exact (H k K)|assumption].
Qed.

Lemma drawable_primitives doc path x n : drawable doc ->
  In x (children_of (or_null (hd_error (select path doc)))) -> In n (children_of (child "Primitives" x)) -> polygonal n ->
  named "Vertex" (children_of n) <> [].
Proof.
  intros D Ix In' P. apply D; [|exact P].
  apply inside_or_null in Ix as (k & K & Ix). apply inside_or_null in In' as (m & M & In'). apply named_in in M as [M _].
  eapply inside_trans; [|exact In']. eapply inside_trans; [|exact M]. eapply inside_trans; [|exact Ix].
  eapply select_inside; [|exact K]. intros m' M'. now apply inside_here.
Qed.

Lemma parse_ends uint_max size_max circle pp doc : (forall c r, circle c r <> []) -> drawable doc ->
  exists r, parse uint_max size_max circle pp doc = Done r.
Proof.
  intros C D. destruct (structure_dec doc) as [(csx & S)|N]; [|rewrite (no_structure _ _ _ _ _ N); eauto].
  destruct (parse_unfold uint_max size_max circle pp doc csx S) as (H & ->).
  destruct (if read_oemsh_params pp then _ else _) as [s1|]; [|eauto].
  destruct (parse_grid uint_max pp csx s1) as [s2|]; [|eauto].
  destruct (properties_end uint_max size_max circle pp (properties_of doc) C)
    with (s := set_background (parse_property (child "BackgroundMaterial" csx)) s2) as (s' & gs & lines & -> & _).
  - intros x n Ix In'. now apply (drawable_primitives doc _ x n D Ix In').
  - cbn. eauto.
Qed.

Lemma parse_not_running uint_max size_max circle pp doc : (forall c r, circle c r <> []) -> parse uint_max size_max circle pp doc <> Running.
Proof.
  intros C. destruct (structure_dec doc) as [(csx & S)|N]; [|rewrite (no_structure _ _ _ _ _ N); discriminate].
  destruct (parse_unfold uint_max size_max circle pp doc csx S) as (H & ->).
  destruct (if read_oemsh_params pp then _ else _) as [s1|]; [|discriminate].
  destruct (parse_grid uint_max pp csx s1) as [s2|]; [|discriminate].
  destruct (properties_outcome uint_max size_max circle pp (properties_of doc) C
     (set_background (parse_property (child "BackgroundMaterial" csx)) s2)) as [->|(s' & gs & lines & -> & _)]; discriminate.
Qed.

Lemma parse_board uint_max size_max circle pp doc s : (forall c r, circle c r <> []) ->
  parse uint_max size_max circle pp doc = Done (Some s) ->
  built (bd_board s) /\ forall k g, nth_error (b_polygons (bd_board s)) k = Some g -> g_material g <> None.
Proof.
  intros C E. destruct (structure_dec doc) as [(csx & S)|N]; [|rewrite (no_structure _ _ _ _ _ N) in E; discriminate].
  destruct (parse_unfold uint_max size_max circle pp doc csx S) as (H & U). rewrite U in E. clear U.
  destruct (if read_oemsh_params pp then _ else _) as [s1|] eqn:E1; [|discriminate].
  destruct (parse_grid uint_max pp csx s1) as [s2|] eqn:E2; [|discriminate].
  assert (B1 : bd_board s1 = empty_board None).
  { destruct (read_oemsh_params pp); [now apply parse_oemsh_some in E1 as [-> _]|now injection E1 as <-]. }
  apply parse_grid_some in E2 as (B2 & _).
  destruct (properties_outcome uint_max size_max circle pp (properties_of doc) C
     (set_background (parse_property (child "BackgroundMaterial" csx)) s2)) as [K|(s' & gs & lines & K & D & F)]; rewrite K in E; [discriminate|].
  cbn in E. injection E as <-. destruct D as (_ & _ & Po & Bu & _).
  assert (B3 : bd_board (set_background (parse_property (child "BackgroundMaterial" csx)) s2) = empty_board (parse_property (child "BackgroundMaterial" csx))).
  { unfold set_background. cbn [bd_board]. now rewrite B2, B1. }
  rewrite B3 in Po, Bu. split; [apply Bu; constructor|]. intros k g G. rewrite Po in G. cbn in G.
  apply nth_error_In in G. now apply (proj1 (Forall_forall _ _) F).
Qed.

(** Only the wanted planes matter to the primitives. *)
Lemma same_planes uint_max size_max circle pp pp' l s :
  with_yz pp = with_yz pp' -> with_zx pp = with_zx pp' -> with_xy pp = with_xy pp' ->
  parse_properties uint_max size_max circle pp l s = parse_properties uint_max size_max circle pp' l s.
Proof.
  intros A B C. unfold parse_properties. apply for_each_ext. intros s1 x. destruct (parse_property x); [|reflexivity].
  apply for_each_ext. intros s2 n. unfold parse_primitive.
  assert (E3 : forall m pr a b s, add_box3 pp m pr a b s = add_box3 pp' m pr a b s) by (intros; unfold add_box3; now rewrite A, B, C).
  unfold parse_box, parse_multibox, parse_linpoly, parse_sphere, parse_cylinder, parse_point, parse_curve.
  rewrite A, B, C, E3. destruct (children_of (child "Transformation" n)); [|reflexivity]. cbv zeta.
  destruct (String.eqb _ _); [reflexivity|]. destruct (String.eqb _ _); [|reflexivity].
  apply for_each_ext. intros; apply E3.
Qed.

Lemma drawable_nil : drawable [].
Proof. intros n I. inversion I as [l H|m l H]; destruct H. Qed.
Lemma drawable_cons n l : (In (name_of n) ["LinPoly"; "Polygon"; "Curve"]%string -> named "Vertex" (children_of n) <> []) ->
  drawable (children_of n) -> drawable l -> drawable (n :: l).
Proof.
  intros H D L m I. inversion I as [k J E|k q J K E]; subst; destruct J as [<-|J]; [assumption| | |].
  - apply L. now constructor 1.
  - now apply D.
  - apply L. now apply inside_below with k.
Qed.
