(** C82: what the two views show as the user moves between the timepoints of a document. *)
From Coq Require Import List Arith Bool.
From Verif Require Import GeomModel HistModel BoardModel StructureModel StructureSpec StructureProofs DisplayModel DisplaySpec DisplayProofs.
From Verif Require ManagerModel PropertiesStructure.
Import ListNotations.
Local Open Scope nat_scope.
Local Open Scope list_scope.

(** Whatever the user does, no map of scenes is asked for a timepoint it does not have and no scene
    that was deleted is read; while a document is open both views show the timepoint visited last,
    and the three planes drawn at a timepoint show the same lines. *)
Theorem C82_shows : forall l, exists d, session l d
  /\ (is_open l = true -> exists t r p m g, visited l = t :: r /\ sees_plane d t p m /\ sees_graph d t g)
  /\ (is_open l = false -> forall t p m g, ~ sees_plane d t p m /\ ~ sees_graph d t g)
  /\ (forall t, In t (visited l) <-> exists p m, drawn_plane d t p m)
  /\ (forall t, In t (visited l) <-> exists g, drawn_graph d t g)
  /\ (forall t p q m, drawn_plane d t p m -> drawn_plane d t q m).
Proof.
  intros l. destruct (did_all l _ _ agrees0) as (d & E & A). exists d. fold (looks l) in A. split; [exact E|].
  assert (He := looks_full l). destruct (looks_visited l) as [_ V]. rewrite looks_open. split; [|split; [|split; [|split]]].
  - destruct (lk_cur (looks l)) as [t|] eqn:C; [|discriminate]. intros _. destruct (looks_cur _ _ C) as [r R]. specialize (He t C).
    destruct (lk_at (looks l) t) as [[m g]|] eqn:X; [|now destruct He]. exists t, r, (lk_plane (looks l)), m, g. split; [exact R|].
    rewrite (sees_plane_at _ _ _ _ _ A), (sees_graph_at _ _ _ _ A). split; [|split; [exact C|now exists m]]. split; [exact C|]. split; [reflexivity|now exists g].
  - destruct (lk_cur (looks l)) as [t|] eqn:C; [discriminate|]. intros _ t p m g. rewrite (sees_plane_at _ _ _ _ _ A), (sees_graph_at _ _ _ _ A), C. split; intros (K & _); discriminate.
  - intros t. rewrite V. split.
    + intros N. destruct (lk_at (looks l) t) as [[m g]|] eqn:X; [|now destruct N]. exists PXY, m. rewrite (drawn_plane_at _ _ _ _ _ A). now exists g.
    + intros (p & m & H). rewrite (drawn_plane_at _ _ _ _ _ A) in H. destruct H as [g ->]. discriminate.
  - intros t. rewrite V. split.
    + intros N. destruct (lk_at (looks l) t) as [[m g]|] eqn:X; [|now destruct N]. exists g. rewrite (drawn_graph_at _ _ _ _ A). now exists m.
    + intros (g & H). rewrite (drawn_graph_at _ _ _ _ A) in H. destruct H as [m ->]. discriminate.
  - intros t p q m. now rewrite !(drawn_plane_at _ _ _ _ _ A).
Qed.

(** The plane of the structure view, and the button pressed, are those chosen last, at whatever
    timepoint and in whatever document that was. *)
Theorem C82_plane : forall l d, session l d ->
  d_plane d = chosen_plane l /\ forall t p m, sees_plane d t p m -> p = chosen_plane l.
Proof.
  intros l d H. apply session_looks in H. unfold chosen_plane. rewrite looks_plane. cbn. split; [apply (ag_dplane _ _ H)|].
  intros t p m P. rewrite (sees_plane_at _ _ _ _ _ H) in P. apply P.
Qed.

(** The keys go around the planes, one the other way of the other. *)
Theorem C82_pages : forall l, is_open l = true ->
  chosen_plane (l ++ [PageUp; PageDown]) = chosen_plane l
  /\ chosen_plane (l ++ [PageDown; PageUp]) = chosen_plane l
  /\ chosen_plane (l ++ [PageUp; PageUp; PageUp]) = chosen_plane l
  /\ forall p, exists k, k <= 2 /\ chosen_plane (l ++ repeat PageUp k) = p.
Proof.
  intros l O. unfold chosen_plane. rewrite !fold_left_app, looks_plane, O. split; [|split; [|split]]; try (now destruct (lk_plane (looks l))).
  intros p. destruct (lk_plane (looks l)) eqn:E, p;
    first [exists 0; split; [repeat constructor|]; rewrite fold_left_app, looks_plane, O, E; reflexivity
          |exists 1; split; [repeat constructor|]; rewrite fold_left_app, looks_plane, O, E; reflexivity
          |exists 2; split; [repeat constructor|]; rewrite fold_left_app, looks_plane, O, E; reflexivity].
Qed.

(** The wires of every graph drawn, and the button pressed, are those chosen last. *)
Theorem C82_wires : forall l d, session l d ->
  d_wires d = chosen_wires l /\ forall t g, drawn_graph d t g -> gr_wires g = chosen_wires l.
Proof.
  intros l d H. apply session_looks in H. unfold chosen_wires. rewrite looks_wires. cbn. split; [apply (ag_dwires _ _ H)|].
  intros t g G. rewrite (drawn_graph_at _ _ _ _ H) in G. destruct G as [m G]. exact (looks_graph_wires _ _ _ _ G).
Qed.

(** What is shown at a timepoint is not changed from another one, nor by moving: only by a click
    there, the wires apart. *)
Theorem C82_kept : forall l a d d' t p m g, session l d -> session (l ++ [a]) d' ->
  (forall r, a <> Open r) ->
  ((forall q k, ~ sees_plane d t q k) \/ (exists u, a = Go u \/ a = Edit u) \/ (exists w, a = ClickWires w)) ->
  drawn_plane d t p m -> drawn_graph d t g ->
  drawn_plane d' t p m
  /\ exists g', drawn_graph d' t g' /\ gr_mode g' = gr_mode g /\ gr_plane g' = gr_plane g /\ gr_axes g' = gr_axes g.
Proof.
  intros l a d d' t p m g H H' NO K P G. apply session_looks in H. apply session_looks in H'. rewrite looks_snoc in H'.
  rewrite (drawn_plane_at _ _ _ _ _ H) in P. rewrite (drawn_graph_at _ _ _ _ H) in G. destruct P as [g0 E]. destruct G as [m0 E']. rewrite E in E'. injection E' as <- ->.
  assert (Q : exists g', lk_at (put a (looks l)) t = Some (m, g') /\ gr_mode g' = gr_mode g /\ gr_plane g' = gr_plane g /\ gr_axes g' = gr_axes g).
  { assert (Here : forall h, (forall q k, ~ sees_plane d t q k) -> on_cur h (looks l) t = Some (m, g)).
    { intros h N. unfold on_cur, upd. destruct (lk_cur (looks l)) as [c|] eqn:C; [|exact E]. destruct (Nat.eqb_spec t c) as [<-|]; [|exact E].
      destruct (N (lk_plane (looks l)) m). rewrite (sees_plane_at _ _ _ _ _ H). split; [exact C|]. split; [reflexivity|now exists g]. }
    assert (New : forall u x, lk_at (looks l) u = None -> upd (lk_at (looks l)) u x t = Some (m, g)).
    { intros u x U. unfold upd. destruct (Nat.eqb_spec t u) as [<-|]; [congruence|exact E]. }
    unfold put, put_go, put_edit. destruct (lk_cur (looks l)) as [c|] eqn:C; [|exists g; destruct a; try (now split); now destruct (NO r)].
    destruct a as [q|x|x|w| | |u|u|r]; cbn;
      try (exists g; split; [apply Here; destruct K as [K|[(u & [K|K])|(w & K)]]; [exact K|discriminate..]|now repeat split]).
    - rewrite E. cbn. eexists. split; [reflexivity|]. now repeat split.
    - exists g. split; [|now repeat split]. destruct (lk_at (looks l) u) eqn:U; cbn; [exact E|now apply New].
    - exists g. split; [|now repeat split]. destruct (lk_at (looks l) u) eqn:U; cbn; [exact E|now apply New].
    - now destruct (NO r). }
  destruct Q as (g' & Q & S1 & S2 & S3). split; [rewrite (drawn_plane_at _ _ _ _ _ H'); now exists g'|]. exists g'. split; [rewrite (drawn_graph_at _ _ _ _ H'); now exists m|now repeat split].
Qed.

(** Moving to a timepoint not shown before: the lines and the mode are those of the timepoint that was
    shown, the plane and the axes are those chosen last. *)
Theorem C82_inherits : forall l a t d d' t0 p m g, session l d -> session (l ++ [a]) d' ->
  a = Go t \/ a = Edit t -> ~ In t (visited l) ->
  sees_plane d t0 p m -> sees_graph d t0 g ->
  sees_plane d' t p m
  /\ exists g', sees_graph d' t g' /\ gr_mode g' = gr_mode g /\ gr_plane g' = p /\ (forall v, gr_axes g' v = graph_axes (chosen_mesh l) v) /\ gr_wires g' = gr_wires g.
Proof.
  intros l a t d d' t0 p m g H H' Ea N P G. apply session_looks in H. apply session_looks in H'. rewrite looks_snoc in H'.
  rewrite (sees_plane_at _ _ _ _ _ H) in P. rewrite (sees_graph_at _ _ _ _ H) in G. destruct P as (C & -> & g0 & E). destruct G as (_ & m0 & E'). rewrite E in E'. injection E' as <- <-.
  destruct (looks_visited l) as [_ V]. assert (X : lk_at (looks l) t = None) by (destruct (lk_at (looks l) t) eqn:X; [destruct N; apply V; congruence|reflexivity]).
  assert (Q : put a (looks l) = put_edit t (looks l)) by (unfold put; destruct Ea as [-> | ->]; rewrite C; unfold put_go; now rewrite ?X).
  rewrite Q in H'. unfold put_edit in H'. rewrite X in H'.
  assert (L : upd (lk_at (looks l)) t (Some (fresh (looks l) (here (looks l)))) t = Some (m, mkGraph (gr_mode g0) (lk_plane (looks l)) (lk_axes (looks l)) (lk_wires (looks l)))).
  { unfold upd. rewrite Nat.eqb_refl. unfold fresh, here. now rewrite C, E. }
  split.
  - rewrite (sees_plane_at _ _ _ _ _ H'). cbn. rewrite L. split; [reflexivity|]. split; [reflexivity|]. now eexists.
  - eexists. rewrite (sees_graph_at _ _ _ _ H'). cbn. rewrite L. split; [split; [reflexivity|]; now eexists|]. cbn. split; [reflexivity|]. split; [reflexivity|].
    split; [apply looks_axes|]. symmetry. exact (looks_graph_wires _ _ _ _ E).
Qed.

(** The buttons pressed are those of what is seen: after a document was opened first, after the
    buttons of both groups were clicked, after moving to a timepoint shown before; and as long as no
    file is opened. *)
Theorem C82_buttons : forall l1 l2 d, session (l1 ++ l2) d -> is_open l1 = true -> no_open l2 -> edits (visited l1) l2 ->
  (exists a t, l1 = a ++ [Open (Some t)] /\ forall u, ~ In (Open (Some u)) a)
  \/ (exists a m k, l1 = a ++ [ClickMesh m; ClickMode k])
  \/ (exists a t, l1 = a ++ [Go t] /\ In t (visited a))
  \/ (exists d1, session l1 d1 /\ buttons_tell d1) ->
  buttons_tell d.
Proof.
  intros l1 l2 d H O NO Ed K. apply session_looks in H. apply (tells_at _ _ H). apply (edits_tells l2 l1 Ed NO O). destruct K as [(a & t & -> & Be)|[(a & m & k & ->)|[(a & t & -> & V)|(d1 & H1 & T1)]]].
  - rewrite looks_snoc. destruct (looks_before a Be) as [-> | ->]; intros _; unfold here; cbn; unfold upd; now rewrite Nat.eqb_refl.
  - replace (a ++ [ClickMesh m; ClickMode k]) with ((a ++ [ClickMesh m]) ++ [ClickMode k]) by now rewrite <- app_assoc. rewrite !looks_snoc. intros _.
    assert (Op : lk_cur (looks a) <> None).
    { unfold is_open in O. rewrite fold_left_app in O. cbn in O. fold (is_open a) in O. rewrite looks_open in O. now destruct (lk_cur (looks a)). }
    assert (F := looks_full a). unfold put. destruct (lk_cur (looks a)) as [c|] eqn:C; [|now destruct Op]. cbn. rewrite C. unfold here. cbn. rewrite C. specialize (F c C). destruct (lk_at (looks a) c) as [x|] eqn:X; [|now destruct F].
    unfold on_cur, upd. cbn. rewrite C, Nat.eqb_refl. unfold on_cur, upd. rewrite C, Nat.eqb_refl, X. reflexivity.
  - rewrite looks_snoc. intros _. destruct (looks_visited a) as [_ Va]. apply Va in V.
    assert (Op : lk_cur (looks a) <> None).
    { unfold is_open in O. rewrite fold_left_app in O. cbn in O. fold (is_open a) in O. rewrite looks_open in O. now destruct (lk_cur (looks a)). }
    unfold put. destruct (lk_cur (looks a)) eqn:C; [|now destruct Op]. unfold put_go. destruct (lk_at (looks a) t) as [x|] eqn:X; [|now destruct V]. unfold here. cbn. now rewrite X.
  - apply session_looks in H1. exact (proj1 (tells_at _ _ H1) T1).
Qed.

(** The graph view follows the structure view (its frames are those of the plane and of the lines
    that are visible): in the first document, or after a click on the buttons of the lines and of the
    planes, as long as the user does not come back to a timepoint shown before. *)
Theorem C82_in_step : forall l1 l2 d t p m g, session (l1 ++ l2) d -> onward (visited l1) l2 ->
  (exists a t, l1 = a ++ [Open (Some t)] /\ forall u, ~ In (Open (Some u)) a)
  \/ (exists a m p, l1 = a ++ [ClickMesh m; ClickPlane p] /\ is_open a = true) ->
  sees_plane d t p m -> sees_graph d t g -> in_step p m g.
Proof.
  intros l1 l2 d t p m g H O K P G. apply session_looks in H. refine (stepped_in_step _ _ _ _ _ _ H _ P G). destruct K as [(a & u & -> & Be)|(a & m' & p' & -> & Op)].
  - apply onward_stepped; [exact O|unfold is_open; now rewrite fold_left_app|]. rewrite looks_snoc.
    destruct (looks_before a Be) as [-> | ->]; intros k E; injection E as <-; cbn; unfold upd; rewrite Nat.eqb_refl; do 2 eexists; (split; [reflexivity|]); cbn; (split; [reflexivity|]); split; intros []; reflexivity.
  - apply onward_stepped; [exact O| |].
    + unfold is_open in *. rewrite fold_left_app. exact Op.
    + replace (a ++ [ClickMesh m'; ClickPlane p']) with ((a ++ [ClickMesh m']) ++ [ClickPlane p']) by now rewrite <- app_assoc. rewrite !looks_snoc.
      apply clicked_stepped; [apply looks_full|]. rewrite looks_open in Op. now destruct (lk_cur (looks a)).
Qed.

(** What [in_step] means for the items of the structure view: the lines of an axis are visible in it
    exactly if the frame of that axis is in the graph. *)
Theorem C82_frames : forall b p r items it ax i m g, populate b p r = ManagerModel.Done items -> In it items -> some_size r ->
  it_entity it = SceneModel.ELine ax i -> in_step p m g -> (axis_frame g ax = true <-> is_shown m it = true).
Proof.
  intros b p r items it ax i m g P I Si E [_ F]. rewrite F. destruct (PropertiesStructure.C81_shown b p r items it m P I Si) as [L _]. destruct (L ax i E) as [-> _].
  unfold lines_visible, frame_shown. destruct p, ax, m; cbn; intuition discriminate.
Qed.

(** A session is run. *)
Ltac ran := unfold session; vm_compute; reflexivity.
Ltac seen := split; [reflexivity|first [reflexivity|eexists; split; reflexivity]].
Ltac computed := do 2 eexists; split; [ran|]; split; [seen|]; split; [seen|]; repeat (split; [reflexivity|]); reflexivity.

(** Not so in general: the plane is chosen for all the timepoints in the structure view, and for the
    timepoint shown only in the graph view.  Here the plane is changed after an edition, which is
    then undone: the structure view shows another plane than the graph that follows it. *)
Theorem C82_undo_refuted : ~ (forall l d t p m g, session l d -> edits [] l ->
  sees_plane d t p m -> sees_graph d t g -> gr_mode g = STRUCTURE_VIEW -> in_step p m g).
Proof.
  intros H. assert (K : exists d g, session [Open (Some 1); ClickMode STRUCTURE_VIEW; Edit 2; ClickPlane PYZ; Go 1] d
    /\ sees_plane d 1 PYZ FULL /\ sees_graph d 1 g /\ gr_mode g = STRUCTURE_VIEW /\ plane_frame g PXY = true) by computed.
  destruct K as (d & g & E & P & G & M & F). specialize (H _ _ _ _ _ _ E ltac:(cbn; intuition discriminate) P G M). clear G. rename H into G.
  destruct G as [G _]. apply G in F. discriminate F.
Qed.

(** Nor for the lines: they are those of the timepoint shown in the structure view, and those chosen
    last in the graph view, which may have been chosen at a timepoint left since.  Here the lines are
    changed after an edition, which is undone, and another edition follows. *)
Theorem C82_edit_refuted : ~ (forall l d t p m g, session l d -> edits [] l ->
  sees_plane d t p m -> sees_graph d t g -> gr_mode g = STRUCTURE_VIEW -> gr_plane g = p -> in_step p m g).
Proof.
  intros H. assert (K : exists d g, session [Open (Some 1); ClickMode STRUCTURE_VIEW; Edit 2; ClickMesh HORIZONTAL; Go 1; Edit 3] d
    /\ sees_plane d 3 PXY FULL /\ sees_graph d 3 g /\ gr_mode g = STRUCTURE_VIEW /\ gr_plane g = PXY /\ axis_frame g AX = false) by computed.
  destruct K as (d & g & E & P & G & M & Q & F). specialize (H _ _ _ _ _ _ E ltac:(cbn; intuition discriminate) P G M Q). clear G. rename H into G.
  destruct G as [_ G]. assert (T : axis_frame g AX = true) by (apply G; left; split; [reflexivity|now right]). congruence.
Qed.

(** Nor for the buttons, nor for the lines, once a second file is opened: the scenes start again, the
    buttons and the graph view do not. *)
Theorem C82_open_refuted : ~ (forall l d, session l d -> edits [] l -> buttons_tell d)
  /\ ~ (forall l d t p m g, session l d -> edits [] l -> (forall t, ~ In (Go t) l) ->
       sees_plane d t p m -> sees_graph d t g -> gr_mode g = STRUCTURE_VIEW -> in_step p m g).
Proof.
  split; intros H.
  - assert (K : exists d g, session [Open (Some 1); ClickMode STRUCTURE_VIEW; ClickMesh HORIZONTAL; Open (Some 2)] d
      /\ sees_plane d 2 PXY FULL /\ sees_graph d 2 g /\ gr_mode g = SELECTED_CHAIN /\ d_mode d = STRUCTURE_VIEW /\ d_mesh d = HORIZONTAL) by computed.
    destruct K as (d & g & E & P & G & M & Q & F). destruct (H _ _ E ltac:(cbn; intuition discriminate) _ _ _ _ P G) as [T _]. congruence.
  - assert (K : exists d g, session [Open (Some 1); ClickMesh HORIZONTAL; Open (Some 2); ClickMode STRUCTURE_VIEW] d
      /\ sees_plane d 2 PXY FULL /\ sees_graph d 2 g /\ gr_mode g = STRUCTURE_VIEW /\ axis_frame g AX = false) by computed.
    destruct K as (d & g & E & P & G & M & F). specialize (H _ _ _ _ _ _ E ltac:(cbn; intuition discriminate) ltac:(intros t; cbn; intuition discriminate) P G M). clear G. rename H into G.
    destruct G as [_ G]. assert (T : axis_frame g AX = true) by (apply G; left; split; [reflexivity|now right]). congruence.
Qed.

(** ** Cases that meet the hypotheses *)

(** A document is opened, the graph follows, lines and planes are chosen, an edition is made, undone,
    another one is made: the buttons tell what is seen. *)
Definition browsing : list action :=
  [PageUp; Open None; ClickWires DIRECT; Open (Some 1); ClickMode STRUCTURE_VIEW; ClickMesh HORIZONTAL; PageDown; Edit 2; ClickMesh VERTICAL; ClickMode EVERYTHING; Go 1].
Example C82_browsing : exists d, session browsing d /\ is_open browsing = true /\ chosen_plane browsing = PYZ /\ chosen_wires browsing = CURVED /\ chosen_mesh browsing = VERTICAL
  /\ visited browsing = [1; 2; 1] /\ sees_plane d 1 PYZ HORIZONTAL
  /\ (exists g, sees_graph d 1 g /\ gr_mode g = STRUCTURE_VIEW) /\ d_mesh d = HORIZONTAL /\ d_mode d = STRUCTURE_VIEW.
Proof.
  eexists. split; [ran|]. do 5 (split; [reflexivity|]). split; [split; [reflexivity|]; eexists; split; reflexivity|].
  split; [eexists; split; [split; reflexivity|reflexivity]|]. split; reflexivity.
Qed.
Example C82_buttons_example : forall d, session browsing d -> buttons_tell d.
Proof.
  intros d H. apply (C82_buttons [PageUp; Open None; ClickWires DIRECT; Open (Some 1)] [ClickMode STRUCTURE_VIEW; ClickMesh HORIZONTAL; PageDown; Edit 2; ClickMesh VERTICAL; ClickMode EVERYTHING; Go 1]).
  - exact H.
  - reflexivity.
  - intros r. cbn. intuition discriminate.
  - cbn. intuition discriminate.
  - left. exists [PageUp; Open None; ClickWires DIRECT], 1. split; [reflexivity|]. intros u. cbn. intuition discriminate.
Qed.
(** The same up to the edition: the views are in step, with one plane and one axis in the graph. *)
Example C82_in_step_example : exists d m g, session (firstn 8 browsing) d /\ sees_plane d 2 PYZ m /\ sees_graph d 2 g /\ in_step PYZ m g
  /\ gr_mode g = STRUCTURE_VIEW /\ axis_frame g AZ = true /\ axis_frame g AY = false.
Proof.
  do 3 eexists. split; [ran|]. split; [split; [reflexivity|]; eexists; split; reflexivity|]. split; [split; reflexivity|]. split; [|split; [|split]; reflexivity].
  eapply (C82_in_step [PageUp; Open None; ClickWires DIRECT; Open (Some 1)] [ClickMode STRUCTURE_VIEW; ClickMesh HORIZONTAL; PageDown; Edit 2]).
  - ran.
  - cbn. intuition discriminate.
  - left. exists [PageUp; Open None; ClickWires DIRECT], 1. split; [reflexivity|]. intros u. cbn. intuition discriminate.
  - split; [reflexivity|]. eexists. split; reflexivity.
  - split; reflexivity.
Qed.
(** In a design with lines on both axes, a graph in step with upright lines only. *)
Example C82_frames_example : exists it, In it PropertiesStructure.corner_items /\ (exists i, it_entity it = SceneModel.ELine AX i)
  /\ in_step PXY VERTICAL (mkGraph STRUCTURE_VIEW PXY (graph_axes VERTICAL) CURVED) /\ is_shown VERTICAL it = true /\ is_shown HORIZONTAL it = false.
Proof.
  destruct (find (fun it => match it_entity it with SceneModel.ELine AX _ => true | _ => false end) PropertiesStructure.corner_items) as [it|] eqn:E; [|vm_compute in E; discriminate].
  exists it. split; [exact (proj1 (find_some _ _ E))|]. vm_compute in E. injection E as <-. split; [eexists; reflexivity|]. split; [|split; reflexivity].
  split; [intros []; split; intros; try reflexivity; discriminate|]. intros []; unfold lines_visible; cbn; intuition discriminate.
Qed.
(** Back to the first timepoint: what was shown at the second is kept; a third one takes the lines of
    the first and the axes chosen at the second. *)
Example C82_kept_example : exists d d' g, session browsing d /\ session (browsing ++ [ClickMesh NONE]) d'
  /\ (forall q k, ~ sees_plane d 2 q k) /\ drawn_plane d 2 PXY VERTICAL /\ drawn_graph d 2 g /\ gr_mode g = EVERYTHING /\ drawn_plane d' 2 PXY VERTICAL.
Proof.
  do 3 eexists. split; [ran|]. split; [ran|]. split; [intros q k (E & _); discriminate E|]. split; [eexists; split; reflexivity|]. split; [reflexivity|]. split; [reflexivity|]. eexists. split; reflexivity.
Qed.
Example C82_inherits_example : exists d d' g, session browsing d /\ session (browsing ++ [Edit 3]) d' /\ ~ In 3 (visited browsing)
  /\ sees_plane d' 3 PYZ HORIZONTAL /\ sees_graph d' 3 g /\ gr_axes g VH = false /\ gr_axes g VV = true.
Proof.
  do 3 eexists. split; [ran|]. split; [ran|]. split; [cbn; intuition discriminate|]. split; [split; [reflexivity|]; eexists; split; reflexivity|]. split; [split; reflexivity|]. split; reflexivity.
Qed.

Print Assumptions C82_shows.
Print Assumptions C82_plane.
Print Assumptions C82_pages.
Print Assumptions C82_wires.
Print Assumptions C82_kept.
Print Assumptions C82_inherits.
Print Assumptions C82_buttons.
Print Assumptions C82_in_step.
Print Assumptions C82_frames.
Print Assumptions C82_undo_refuted.
Print Assumptions C82_edit_refuted.
Print Assumptions C82_open_refuted.
