(** Property C80: the state diagram of a board. *)
From Coq Require Import String Ascii List Arith Bool Lia QArith Permutation Sorting.Sorted.
From Verif Require Import IntervalModel ManagerModel ManagerSpec ManagerMoreProofs GeomModel BoardModel BoardSpec BoardExamples EditModel EditSpec.
From Verif Require Import SceneModel SceneSpec SceneProofs SceneValidProofs PlantumlModel PlantumlSpec PlantumlProofs PlantumlStateProofs PlantumlValidProofs PlantumlArrowProofs PlantumlTextProofs PlantumlSaysProofs.
From Verif Require Import PropertiesEdit PropertiesScene.
Import ListNotations.
Local Open Scope nat_scope.
Local Open Scope list_scope.

(** The diagram of what the steps made of a file; [named] are the names of its polygons. *)
Definition diagram (named : nat -> string) (tl : tools) (ss : session) (k : links) : run (list stmt) := plantuml named (tl_sort_by tl) (ss_board ss) k.

Section Reached.
Context (tl : tools) (b : board) (x : settings) (ss : session) (R : reached tl b x [Run_steps] ss).
Lemma for_diagram : permutes (tl_sort_by tl) /\ valid False (length (b_edges b)) 0 (map g_edges (b_polygons b)) (ss_board ss) /\ shared_out (length (b_edges b)) (map g_edges (b_polygons b)) /\ solved_well (ss_board ss).
Proof.
  split; [apply R|]. split; [exact (reached_valid tl b x _ ss R False (fun f => match f with end))|]. split; [apply built_shared, R|exact (well_reached tl b x ss R)].
Qed.
End Reached.

(** The diagram can be written; braces match; every object but angles and zones has exactly
    one state, nothing else has but the planes and axes, and each is where it belongs. *)
Theorem C80_states : forall named tl b x ss k, reached tl b x [Run_steps] ss ->
  exists body ds, diagram named tl ss k = Done (Start :: body ++ [Finish]) /\ outline body [] = Some ds /\ NoDup (map fst ds)
    /\ (forall y, In (Whole y) (map fst ds) <-> shown (ss_board ss) y)
    /\ (forall p, In (Plane_name p) (map fst ds)) /\ (forall a, In (Axis_name a) (map fst ds))
    /\ forall n around, In (n, around) ds -> in_its_frame (ss_board ss) n around.
Proof.
  intros named tl b x ss k R. destruct (for_diagram tl b x ss R) as (Pm & V & Sh & W). pose proof (reached_nodup tl b x _ ss R) as D.
  destruct (plantuml_ends named (tl_sort_by tl) (ss_board ss) k Pm _ _ _ V Sh W) as (doc & E). destruct (plantuml_gives _ _ _ _ _ E) as (body & -> & G).
  exists body, (all_ds (tl_sort_by tl) (ss_board ss)). split; [exact E|]. split; [now apply gives_outline|]. split; [exact (names_once _ _ Pm D)|].
  split; [intros y; exact (name_there _ _ Pm (Whole y))|]. split; [intros p; now apply (name_there _ _ Pm (Plane_name p))|]. split; [intros a; now apply (name_there _ _ Pm (Axis_name a))|].
  exact (all_framed _ _ Pm).
Qed.

(** Arrows are between states of the diagram, not from where they end nor to where they
    start, and exactly between the objects that [drawn_from] relates. *)
Theorem C80_arrows : forall named tl b x ss k body ds, reached tl b x [Run_steps] ss -> links_sound (ss_board ss) k ->
  diagram named tl ss k = Done (Start :: body ++ [Finish]) -> outline body [] = Some ds ->
  (forall from style to rest, In (Arrow from style to rest) body -> In from (map fst ds) /\ In to (map fst ds) /\ way_out from /\ way_in to)
  /\ forall y z, arrow body y z <-> drawn_from (ss_board ss) k z y.
Proof.
  intros named tl b x ss k body ds R L E O. destruct (for_diagram tl b x ss R) as (Pm & V & Sh & W).
  destruct (plantuml_gives _ _ _ _ _ E) as (body' & Eb & G). injection Eb as Eb. apply app_inv_tail in Eb. subst body'. pose proof (gives_outline _ _ G) as O'. rewrite O in O'. injection O' as ->.
  assert (Bd : forall from style to rest, In (Arrow from style to rest) body -> right_arrow (ss_board ss) k from to).
  { intros from style to rest I. apply (arrow_right named _ _ k Pm _ _ _ V Sh L _ E from style to rest). right. apply in_or_app. now left. }
  assert (Th : forall n, there_name (ss_board ss) n -> In n (names (all_ds (tl_sort_by tl) (ss_board ss)))) by (intros [p|a|u|u q] T; try contradiction; now apply (name_there _ _ Pm)).
  split.
  - intros from style to rest I. destruct (Bd _ _ _ _ I) as (F & T & N & M & _). auto.
  - intros y z. split.
    + intros (from & style & to & rest & I & F & T). destruct (Bd _ _ _ _ I) as (_ & _ & _ & _ & y' & z' & F' & T' & Dr).
      assert (Same : forall u v n, end_at u n -> end_at v n -> u = v) by (intros u v n [->|(q & ->)] [Q|(q' & Q)]; congruence). now rewrite (Same y y' from F F'), (Same z z' to T T').
    + intros Dr. destruct (drawn_arrow named _ _ k Pm _ E z y Dr) as (from & style & to & rest & I & F & T). exists from, style, to, rest. split; [|auto].
      destruct I as [I|I]; [discriminate|]. apply in_app_or in I. destruct I as [I|[I|[]]]; [exact I|discriminate].
Qed.

(** ... so that one sees what everything was made out of, but for what was made out of
    angles and zones, and for edges. *)
Theorem C80_complete : forall named tl b x ss k body, reached tl b x [Run_steps] ss -> links_sound (ss_board ss) k -> origins_sound (ss_board ss) k ->
  diagram named tl ss k = Done (Start :: body ++ [Finish]) ->
  forall y z, made_of (ss_board ss) k z y -> shown_kind y -> shown_kind z -> (forall i, z <> EEdge i) -> arrow body y z.
Proof.
  intros named tl b x ss k body R L [Sc Or] E y z (Oz & Oy & C) Ky Kz N.
  destruct (C80_states named tl b x ss k R) as (body' & ds & E' & O & _). rewrite E in E'. injection E' as E'. apply app_inv_tail in E'. subst body'.
  apply (proj2 (C80_arrows named tl b x ss k body ds R L E O)). destruct C; try contradiction; try (apply drawn_made; [econstructor; eassumption|exact Logic.I|first [left; exact Logic.I|right; exact Logic.I]]).
  - now destruct (N i).
  - assert (Lt : i < length (ax_policies (on_axis (b_axes (ss_board ss)) a))) by exact Oz. destruct (Or a i Lt) as [One Ce]. destruct (proj1 L a i x0 Lt H0) as [_ Kd].
    destruct x0; try contradiction.
    + eapply drawn_origin; [exact H|]. destruct (lk_origins k a i) as [|u [|v w]]; [destruct H0| |cbn in One; lia]. destruct H0 as [->|[]]. reflexivity.
    + destruct (Ce _ _ H0) as (-> & t & Et & Ep). eapply drawn_colinear; eassumption.
    + destruct (Sc _ _ _ _ Lt H0) as (-> & t & Et & Ep). eapply drawn_close; eassumption.
Qed.

(** Each axis lists its policies from the lowest coordinate on. *)
Theorem C80_sorted : forall named tl b x ss k body, reached tl b x [Run_steps] ss -> sorts_by (tl_sort_by tl) ->
  diagram named tl ss k = Done (Start :: body ++ [Finish]) ->
  forall a, StronglySorted Qle (listed_coords (ss_board ss) a body)
    /\ Permutation (map p_coord (ax_policies (on_axis (b_axes (ss_board ss)) a))) (listed_coords (ss_board ss) a body).
Proof.
  intros named tl b x ss k body R So E a. destruct (for_diagram tl b x ss R) as (Pm & _).
  destruct (plantuml_gives _ _ _ _ _ E) as (body' & Eb & G). injection Eb as Eb. apply app_inv_tail in Eb. subst body'. pose proof (gives_outline _ _ G) as O.
  assert (P : listed_coords (ss_board ss) a body = flat_map (coord_of (ss_board ss) a) (sorted_policies (tl_sort_by tl) (ss_board ss) a)).
  { rewrite <- picked by assumption. unfold listed_coords. now rewrite (outline_listed _ _ _ O). }
  rewrite P. split; [now apply sorted_coords|now apply same_coords].
Qed.

(** What is written in the states, and their titles and colours. *)
Theorem C80_says : forall named tl b x ss k body, reached tl b x [Run_steps] ss -> diagram named tl ss k = Done (Start :: body ++ [Finish]) ->
  (forall y t, In (Field y t) body <-> says (ss_board ss) y t)
  /\ forall y title colour, In (Open title (Whole y) colour) body -> title = titled named y /\ coloured (ss_board ss) y colour.
Proof.
  intros named tl b x ss k body R E. destruct (for_diagram tl b x ss R) as (Pm & _). split.
  - intros y t. split.
    + intros I. apply (field_says named _ _ k Pm _ E). right. apply in_or_app. now left.
    + intros Y. pose proof (says_field named _ _ k Pm _ E y t Y) as I. destruct I as [I|I]; [discriminate|]. apply in_app_or in I. destruct I as [I|[I|[]]]; [exact I|discriminate].
  - intros y title colour I. apply (open_titled named _ _ k Pm _ E). right. apply in_or_app. now left.
Qed.

(** The text has one line for each statement, if the names of polygons have one line; a title
    is read back if it has no quotation mark; different states have different names. *)
Theorem C80_text : forall ident named tl b x ss k body ds, reached tl b x [Run_steps] ss ->
  (forall i, i < length (b_polygons (ss_board ss)) -> one_line (named i)) ->
  diagram named tl ss k = Done (Start :: body ++ [Finish]) -> outline body [] = Some ds ->
  lines_of_text (text ident (Start :: body ++ [Finish])) = map (fun s => chars (stmt_text ident s)) (Start :: body ++ [Finish])
  /\ (forall title n colour, unquoted title -> quoted (chars (stmt_text ident (Open title n colour))) = Some (chars title))
  /\ (told_apart (ss_board ss) ident -> forall m n, In m (map fst ds) -> In n (map fst ds) -> name_text ident m = name_text ident n -> m = n).
Proof.
  intros ident named tl b x ss k body ds R Nm E O. destruct (for_diagram tl b x ss R) as (Pm & _). split; [exact (document_lines ident named _ _ k Nm _ E)|]. split; [intros title n colour; apply label_read|].
  destruct (plantuml_gives _ _ _ _ _ E) as (body' & Eb & G). injection Eb as Eb. apply app_inv_tail in Eb. subst body'. pose proof (gives_outline _ _ G) as O'. rewrite O in O'. injection O' as ->.
  intros Ta m n Im In' Et. apply name_same in Et. apply (name_there _ _ Pm) in Im, In'. destruct m as [p|a|u|u q], n as [p'|a'|v|v q']; try exact Et.
  - f_equal. now apply Ta.
  - destruct Et as [Ei ->]. f_equal. apply Ta; tauto.
Qed.

(** Three boxes: 138 states, 66 arrows, ten policies on the first axis, which are not in that order on the board. *)
Definition boxes_diagram : list stmt := Eval vm_compute in match diagram (fun _ => "box"%string) plain_tools boxes_session boxes_links with Done (_ :: l) => removelast l | _ => [] end.
Definition boxes_states : list declared := Eval vm_compute in match outline boxes_diagram [] with Some l => l | None => [] end.
Lemma boxes_drawn : diagram (fun _ => "box"%string) plain_tools boxes_session boxes_links = Done (Start :: boxes_diagram ++ [Finish]).
Proof. vm_compute. reflexivity. Qed.
Definition numbers (x : entity) : nat :=
  let axis a := match a with AX => 0 | AY => 1 | AZ => 2 end in
  let plane p := match p with PYZ => 0 | PZX => 1 | PXY => 2 end in
  match x with
  | EPolygon i => 30 * i
  | EEdge i => 30 * i + 1
  | EAngle i => 30 * i + 2
  | EColinear a i => 30 * i + 3 + axis a
  | EInPolygon p i => 30 * i + 6 + plane p
  | EClose a i => 30 * i + 9 + axis a
  | EZone a i => 30 * i + 12 + axis a
  | EPolicy a i => 30 * i + 15 + axis a
  | EInterval a i => 30 * i + 18 + axis a
  | ELine a i => 30 * i + 21 + axis a
  end.
Lemma numbers_apart b : told_apart b numbers.
Proof.
  intros x y [_ Kx] [_ Ky] E. destruct x as [i|i|i|a i|a i|a i|a i|a i|a i|a i], y as [j|j|j|c j|c j|c j|c j|c j|c j|c j]; try contradiction; unfold numbers in E; cbn zeta in E;
  try destruct a; try destruct c; first [exfalso; lia|f_equal; lia].
Qed.
Lemma plain_sorts_by : sorts_by (tl_sort_by plain_tools).
Proof. exact isort_by_sorts. Qed.
Lemma boxes_origins : origins_sound (ss_board boxes_session) boxes_links.
Proof.
  split; [exact (proj1 C74_example)|]. intros a i L. split.
  - assert (T : forallb (fun i => length (lk_origins boxes_links a i) <=? 1) (seq 0 (length (ax_policies (on_axis (b_axes (ss_board boxes_session)) a)))) = true) by (destruct a; vm_compute; reflexivity).
    pose proof (below _ _ T i L) as F. cbn beta in F. now apply Nat.leb_le.
  - intros c j I. unfold boxes_links in I. cbn [lk_origins] in I. apply in_app_or in I. destruct I as [I|I]; apply in_map_iff in I; destruct I as (n & E & I); discriminate.
Qed.
Example C80_example : reached plain_tools three_boxes coarse [Run_steps] boxes_session /\ links_sound (ss_board boxes_session) boxes_links
  /\ origins_sound (ss_board boxes_session) boxes_links /\ sorts_by (tl_sort_by plain_tools)
  /\ diagram (fun _ => "box"%string) plain_tools boxes_session boxes_links = Done (Start :: boxes_diagram ++ [Finish])
  /\ outline boxes_diagram [] = Some boxes_states /\ length boxes_states = 138
  /\ length (filter (fun s => match s with Arrow _ _ _ _ => true | _ => false end) boxes_diagram) = 66
  /\ listed_coords (ss_board boxes_session) AX boxes_diagram = [0; 1 # 4; 1 # 2; 5 # 8; 1; 20; 81 # 4; 41 # 2; 165 # 8; 21]%Q
  /\ map p_coord (ax_policies (on_axis (b_axes (ss_board boxes_session)) AX)) <> listed_coords (ss_board boxes_session) AX boxes_diagram
  /\ shown (ss_board boxes_session) (EClose AX 2) /\ drawn_from (ss_board boxes_session) boxes_links (EPolicy AX 8) (EClose AX 2)
  /\ made_of (ss_board boxes_session) boxes_links (EPolicy AX 0) (EEdge 1)
  /\ says (ss_board boxes_session) (EPolicy AX 0) "Policy = THIRDS" /\ coloured (ss_board boxes_session) (EPolicy AX 0) " #red"
  /\ (forall i, i < length (b_polygons (ss_board boxes_session)) -> one_line "box") /\ told_apart (ss_board boxes_session) numbers.
Proof.
  split; [exact boxes_reached|]. split; [exact boxes_sound|]. split; [exact boxes_origins|]. split; [exact plain_sorts_by|]. split; [exact boxes_drawn|]. split; [vm_compute; reflexivity|].
  split; [reflexivity|]. split; [reflexivity|]. split; [vm_compute; reflexivity|]. split; [vm_compute; discriminate|]. split; [split; [cbn; lia|exact Logic.I]|].
  split; [eapply drawn_close; vm_compute; reflexivity|]. split; [|split; [|split; [|split]]].
  - split; [cbn; lia|]. split; [exists 0; eexists; split; [reflexivity|vm_compute; auto]|]. eapply policy_from_origin; [vm_compute; reflexivity|]. vm_compute. now left.
  - exact (says_policy_policy (ss_board boxes_session) AX 0 _ eq_refl).
  - eapply policy_off; vm_compute; reflexivity.
  - intros i _. vm_compute. intuition discriminate.
  - apply numbers_apart.
Qed.

(** Not so if a name has a line end or a quotation mark: it is written as it is. *)
Definition bad_name (c : nat) : string := String "a"%char (String (ascii_of_nat c) "b"%string).
Definition bad_diagram (c : nat) : list stmt := match diagram (fun _ => bad_name c) plain_tools boxes_session boxes_links with Done (_ :: l) => removelast l | _ => [] end.
Theorem C80_names_refuted : exists tl b x ss k ident,
  reached tl b x [Run_steps] ss /\ links_sound (ss_board ss) k /\ told_apart (ss_board ss) ident
  /\ (exists named body, diagram named tl ss k = Done (Start :: body ++ [Finish])
      /\ length (lines_of_text (text ident (Start :: body ++ [Finish]))) <> length (Start :: body ++ [Finish]))
  /\ (exists named body title n colour, diagram named tl ss k = Done (Start :: body ++ [Finish])
      /\ In (Open title n colour) body /\ one_line title /\ quoted (chars (stmt_text ident (Open title n colour))) <> Some (chars title)).
Proof.
  exists plain_tools, three_boxes, coarse, boxes_session, boxes_links, numbers. split; [exact boxes_reached|]. split; [exact boxes_sound|]. split; [apply numbers_apart|]. split.
  - exists (fun _ => bad_name 10), (bad_diagram 10). split; [vm_compute; reflexivity|]. vm_compute. discriminate.
  - exists (fun _ => bad_name 34), (bad_diagram 34), ("Polygon " ++ bad_name 34)%string, (Whole (EPolygon 0)), ""%string. split; [vm_compute; reflexivity|]. split; [|split].
    + vm_compute. repeat first [left; reflexivity|right].
    + vm_compute. intuition discriminate.
    + vm_compute. discriminate.
Qed.

Print Assumptions C80_states.
Print Assumptions C80_arrows.
Print Assumptions C80_complete.
Print Assumptions C80_sorted.
Print Assumptions C80_says.
Print Assumptions C80_text.
Print Assumptions C80_names_refuted.
