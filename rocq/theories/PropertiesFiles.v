(** C63: from a file to the lines that are written in it. *)
From Coq Require Import List Arith Bool Lia QArith Qabs Qminmax Lqa String Ascii.
From Verif Require Import IntervalModel IntervalSpec ManagerModel ManagerSpec ManagerMoreProofs ManagerCounterProofs GeomModel GeomSpec BoardModel BoardSpec BoardExamples EndSpec.
From Verif Require Import InfraModel InfraSpec InfraNumberProofs InfraProofs InfraFileProofs InfraWriteProofs FileRunProofs PropertiesRun PropertiesDiag PropertiesLines PropertiesEnd PropertiesInfra.
Import ListNotations.
Open Scope Q_scope.

(** The run on what was read. *)
Definition policies_of_file (srt : sort_by) (ang : point -> point -> Q) (s : builder) (n : nat) : run board :=
  policies_of_board n (params_of (bd_params s)) (diag_params_of (bd_params s)) srt ang (bd_fixed s) (bd_board s).
Definition lines_of_file (srt : sorter) (s : builder) (b : board) (n : nat) : run board := lines_of_board n (params_of (bd_params s)) srt b.

(** The file is read with the options of the command line; its shapes are not too small
    and points can be located in them: there is an end, and each axis has lines in order,
    not farther apart than the largest [dmax]. *)
Theorem C63_lines : forall uint_max size_max circle pp l doc s srt srt' ang, (forall c r, circle c r <> []) -> sorts_by srt -> permutes srt -> sorts srt' ->
  parse_with uint_max size_max circle pp (override_from_cli l) doc = Done (Some s) ->
  usable (params_of (bd_params s)) (diag_params_of (bd_params s)) -> only_boxes (bd_board s) \/ edges_long (bd_board s) -> locatable (bd_board s) ->
  exists b b', finishes (policies_of_file srt ang s) b /\ finishes (lines_of_file srt' s b) b'
  /\ forall ax, increasing (ax_lines (on_axis (b_axes b') ax)) /\ within (Qmax (dmax (bd_params s)) (diagonal_dmax (bd_params s))) (ax_lines (on_axis (b_axes b') ax)).
Proof.
  intros uint_max size_max circle pp l doc s srt srt' ang C So Pm So' E U Ok Lo. destruct (parse_with_inv _ _ _ _ _ _ _ E) as (s0 & E0 & B).
  destruct (C58_board _ _ _ _ _ _ C E0) as [Bu Ma]. rewrite <- B in Bu, Ma.
  destruct (C56_lines (params_of (bd_params s)) (diag_params_of (bd_params s)) srt srt' ang (bd_fixed s) (bd_board s) So Pm So' U Bu Ma Ok Lo) as (b & b' & F & F').
  exists b, b'. split; [exact F|]. split; [exact F'|]. intros ax. destruct F as (n & F).
  destruct (C55_spaced n _ _ srt srt' ang _ _ b b' So So' Bu U (F n (le_n n)) F' ax) as (I & W & _). split; [exact I|exact W].
Qed.
Print Assumptions C63_lines.

(** A file with boxes, points and elements that are not known only. *)
Definition boxes_only (doc : list xml) : Prop :=
  forall n, inside n doc -> ~ In (name_of n) ["LinPoly"; "Polygon"; "Sphere"; "Cylinder"; "Curve"]%string.
Theorem C63_boxes : forall uint_max size_max circle pp l doc s srt srt' ang, (forall c r, circle c r <> []) -> sorts_by srt -> permutes srt -> sorts srt' ->
  parse_with uint_max size_max circle pp (override_from_cli l) doc = Done (Some s) ->
  usable (params_of (bd_params s)) (diag_params_of (bd_params s)) -> boxes_only doc ->
  exists b b', finishes (policies_of_file srt ang s) b /\ finishes (lines_of_file srt' s b) b'
  /\ forall ax, increasing (ax_lines (on_axis (b_axes b') ax)) /\ within (Qmax (dmax (bd_params s)) (diagonal_dmax (bd_params s))) (ax_lines (on_axis (b_axes b') ax)).
Proof.
  intros uint_max size_max circle pp l doc s srt srt' ang C So Pm So' E U Bx. destruct (parse_with_inv _ _ _ _ _ _ _ E) as (s0 & E0 & B).
  assert (O : only_boxes (bd_board s)).
  { rewrite B. intros k g G. apply nth_error_In in G. revert g G. apply Forall_forall. refine (parse_drawn is_box _ uint_max size_max circle pp doc s0 _ E0).
    - intros a b. now exists a, b.
    - intros n I. specialize (Bx n I). split; [|split]; intros K; exfalso; apply Bx; cbn in *; intuition. }
  apply C63_lines with (uint_max := uint_max) (size_max := size_max) (circle := circle) (pp := pp) (l := l) (doc := doc); try assumption; [now left|].
  intros k g G. left. exact (O k g G).
Qed.
Print Assumptions C63_boxes.

(** The lines are written in the file: in order still, as far apart but for the
    rounding. *)
Fixpoint ordered (l : list Q) : Prop := match l with a :: (b :: _) as r => a <= b /\ ordered r | _ => True end.
Theorem C63_written : forall srt srt' ang s b b' show show_uint sp doc csx, sorts_by srt -> sorts srt' -> built (bd_board s) ->
  usable (params_of (bd_params s)) (diag_params_of (bd_params s)) -> finishes (policies_of_file srt ang s) b -> finishes (lines_of_file srt' s b) b' ->
  one_place doc csx -> with_meshlines sp = true -> with_meshline_policies sp = false ->
  exists csx', structure (serialize show show_uint sp (bd_params s) (b_axes b') doc) csx' /\ forall ax, with_axis sp ax = true ->
    exists vs, map from_chars (axis_texts (child "RectilinearGrid" csx') ax) = map Some vs
    /\ Forall2 (fun x v => Qabs (v - x) <= micro / 2) (ax_lines (on_axis (b_axes b') ax)) vs
    /\ ordered vs /\ within (Qmax (dmax (bd_params s)) (diagonal_dmax (bd_params s)) + micro) vs.
Proof.
  intros srt srt' ang s b b' show show_uint sp doc csx So So' Bu U (n & F) F' P W1 W2.
  destruct (serialize_structure show show_uint sp (bd_params s) (b_axes b') doc csx P) as (_ & S & _). exists (write_grid sp (b_axes b') csx). split; [exact S|].
  intros ax A. destruct (grid_texts sp (b_axes b') csx ax) as (vs & T & G). exists vs. split; [exact T|].
  unfold to_write in G. rewrite A, W1, W2, app_nil_r in G.
  destruct (C55_spaced n _ _ srt srt' ang _ _ b b' So So' Bu U (F n (le_n n)) F' ax) as (I & W & _). cbn [params_of diag_params_of g_dmax dp_dmax] in W.
  set (D := Qmax _ _) in *. clearbody D. set (lines := ax_lines (on_axis (b_axes b') ax)) in *. clearbody lines. clear -G I W. split; [|split].
  - induction G as [|x v l vs E G IH]; constructor; [rewrite E; apply written_near|]. apply IH; destruct l; [exact Logic.I|apply I|exact Logic.I|apply W].
  - induction G as [|x v l vs E G IH]; [exact Logic.I|]. destruct G as [|y w l vs E' G]; [exact Logic.I|]. destruct I as [Lt I], W as [Le W].
    cbn [ordered]. split; [|now apply IH]. rewrite E, E'. apply written_mono. lra.
  - induction G as [|x v l vs E G IH]; [exact Logic.I|]. destruct G as [|y w l vs E' G]; [exact Logic.I|]. destruct I as [Lt I], W as [Le W].
    cbn [within]. split; [|now apply IH]. rewrite E, E'. pose proof (written_near x) as X. pose proof (written_near y) as Y.
    apply Qabs_Qle_condition in X. apply Qabs_Qle_condition in Y. unfold Qdiv in X, Y. change (/ 2) with (1 # 2) in X, Y. lra.
Qed.
Print Assumptions C63_written.

(** A sample: two boxes, one flat, and lines that are kept. *)
Section Cases63.
Open Scope string_scope.
Definition point_at (name x y z : string) : xml := Node name [("X", x); ("Y", y); ("Z", z)] "" [].
Definition box_doc : list xml := [Node "openEMS" [] "" [Node "ContinuousStructure" [("CoordSystem", "0")] ""
  [Node "RectilinearGrid" [] "" [Node "XLines" [] "-20,20" []]; Node "BackgroundMaterial" [] "" [];
   Node "Properties" [] "" [Node "Metal" [] "" [Node "Primitives" [] "" [Node "Box" [] "" [point_at "P1" "0" "0" "0"; point_at "P2" "10" "10" "0"]]];
     Node "Material" [] "" [Node "Property" [("Epsilon", "4.2")] "" []; Node "Primitives" [] "" [Node "Box" [] "" [point_at "P1" "-5" "-5" "-1"; point_at "P2" "15" "15" "0"]]]]]]].
Definition keeps_mesh : parser_params := mk_parser_params true true true true true.
End Cases63.
Definition box_file : builder := Eval vm_compute in
  match parse_with 99 999 diamond keeps_mesh (override_from_cli [SetDmax 3]) box_doc with Done (Some s) => s | _ => new_builder end.
Lemma none_inside_nil (P : xml -> Prop) : forall n, inside n [] -> P n.
Proof. intros n H. exfalso. inversion H; contradiction. Qed.
Lemma none_inside_cons (P : xml -> Prop) a l : P a -> (forall n, inside n (children_of a) -> P n) -> (forall n, inside n l -> P n) -> forall n, inside n (a :: l) -> P n.
Proof.
  intros A B C n H. inversion H as [l' I|m l' I J]; subst.
  - destruct I as [<-|I]; [exact A|]. apply C. now constructor.
  - destruct I as [<-|I]; [now apply B|]. apply C. now apply (inside_below n m).
Qed.
Example C63_case : parse_with 99 999 diamond keeps_mesh (override_from_cli [SetDmax 3]) box_doc = Done (Some box_file)
  /\ usable (params_of (bd_params box_file)) (diag_params_of (bd_params box_file)) /\ boxes_only box_doc /\ List.length (b_polygons (bd_board box_file)) = 6%nat
  /\ exists csx, one_place box_doc csx.
Proof.
  split; [vm_compute; reflexivity|]. split; [repeat split; cbn; lra|]. split.
  { unfold boxes_only, box_doc. repeat first [apply none_inside_nil|apply none_inside_cons; cbn [name_of children_of point_at]]; cbn; intuition discriminate. }
  split; [reflexivity|]. eexists. left. split; [reflexivity|]. eexists. split; reflexivity.
Qed.

(** The command line accepts a [dmax] of 0: then there is no end. *)
Definition stuck_file : builder := Eval vm_compute in
  match parse_with 99 999 diamond keeps_mesh (override_from_cli [SetDmax 0]) box_doc with Done (Some s) => s | _ => new_builder end.
Definition stuck_policies : board := Eval vm_compute in result (policies_of_file isort_by (fun _ _ => 90) stuck_file 20).
Definition before_mesh (n : nat) : run board :=
  let! b := on_each_axis (fun _ => detect_and_solve_too_close n (params_of (bd_params stuck_file)) isort) stuck_policies in
  let! b := on_each_axis (fun _ => detect_intervals (params_of (bd_params stuck_file)) isort) b in
  on_each_axis (fun ax x => let! zs := collect (zone_of b ax) (on_axis (b_zones b) ax) in Done (apply_zones zs x)) b.
Definition stuck_segments : board := Eval vm_compute in result (before_mesh 10).
Lemma before_mesh_known n : before_mesh n = Running \/ before_mesh n = Done stuck_segments.
Proof.
  do 6 (destruct n as [|n]; [first [left; vm_compute; reflexivity|right; vm_compute; reflexivity]|]). right. vm_compute. reflexivity.
Qed.
Theorem C63_options_refuted : exists doc l s b, Forall (fun x => accepted x = true) l /\ boxes_only doc
  /\ parse_with 99 999 diamond keeps_mesh (override_from_cli l) doc = Done (Some s)
  /\ policies_of_file isort_by (fun _ _ => 90) s 20 = Done b /\ loops (lines_of_file isort s b).
Proof.
  exists box_doc, [SetDmax 0], stuck_file, stuck_policies. split; [now constructor|]. split; [apply C63_case|]. split; [vm_compute; reflexivity|]. split; [vm_compute; reflexivity|].
  intros n. unfold lines_of_file, lines_of_board. pose proof (before_mesh_known n) as K. unfold before_mesh in K.
  destruct (on_each_axis (fun _ => detect_and_solve_too_close n (params_of (bd_params stuck_file)) isort) stuck_policies) as [b1| |]; cbn [bind] in *; [|reflexivity|destruct K; discriminate].
  destruct (on_each_axis (fun _ => detect_intervals (params_of (bd_params stuck_file)) isort) b1) as [b2| |]; cbn [bind] in *; [|reflexivity|destruct K; discriminate].
  destruct K as [-> | ->]; [reflexivity|]. cbn [bind]. unfold on_each_axis, all_axes. cbn [for_each].
  assert (L : mesh_axis n isort (on_axis (b_axes stuck_segments) AX) = Running); [|now rewrite L].
  assert (X : exists sg, nth_error (ax_segments (on_axis (b_axes stuck_segments) AX)) 0 = Some sg /\ 0 <= sd_smoothness (iv_before (sg_iv sg)) /\ iv_dmax (sg_iv sg) <= 0).
  { eexists. split; [reflexivity|]. split; vm_compute; discriminate. }
  destruct X as (sg & E & S0 & D0). refine (hang_without_dmax isort _ 0 sg isort_sorts _ E S0 D0 n).
  unfold pointing. intros k t Et. apply nth_error_In in Et. revert t Et. apply Forall_forall. cbv [on_axis b_axes stuck_segments sp_0 sp_1 sp_2 ax_segments].
  repeat apply Forall_cons; try apply Forall_nil; cbn; repeat split; try lia; eauto.
Qed.
Print Assumptions C63_options_refuted.
