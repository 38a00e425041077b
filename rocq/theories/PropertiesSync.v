(** Property C83: the selection goes from one view to the others. *)
From Coq Require Import List Arith Bool Lia.
From Verif Require Import GeomModel DisplayModel SyncModel SyncSpec SyncProofs.
From Verif Require ManagerModel BoardModel EditModel SceneModel SceneSpec StructureModel StructureSpec PropertiesEdit PropertiesScene PropertiesStructure.
Import ListNotations.

(** * C83 *)

(** Whatever has an item in the structure view has a node in the graph: after any edits, from the
    boards of the program. *)
Theorem C83_covered : forall tl b x l ss k p r items it, SceneSpec.reached tl b x l ss -> SceneSpec.links_sound (EditModel.ss_board ss) k ->
  StructureModel.populate (EditModel.ss_board ss) p r = ManagerModel.Done items -> In it items ->
  exists sc n, SceneModel.populate (EditModel.ss_board ss) k = ManagerModel.Done sc /\ SceneSpec.stands_for sc n (StructureModel.it_entity it).
Proof.
  intros tl b x l ss k p r items it R K P I. destruct (PropertiesScene.C72_nodes tl b x l ss k R K) as (sc & S & N & _).
  destruct (PropertiesStructure.C81_complete tl b x l ss p r R) as (items' & P' & _ & D). rewrite P in P'. injection P' as <-.
  assert (H : StructureSpec.drawn_in (EditModel.ss_board ss) p (StructureModel.it_entity it)) by (apply D, in_map, I). destruct H as [H _].
  destruct (N _ H) as (n & Sn & _). now exists sc, n.
Qed.

(** The scenes call each other back, but never for ever: whatever the user selects or hides, the
    calls are nested eight deep at most, and once done no scene goes on ignoring the others. *)
Theorem C83_ends : forall w chain visible l, covered w ->
  exists st, gestures w 8 l (unselected chain visible) = Some st /\ released st.
Proof.
  intros w chain visible l W. destruct (steps_end w 0 l _ W (linked_start w chain visible)) as (st & E & B). exists st. split; [exact E|exact (b_free _ _ _ _ B)].
Qed.

(** Nothing is ever selected in a scene that is not in the graph as well, that has no item there
    or that cannot be seen; nor is anything twice. *)
Theorem C83_never : forall w chain visible l st p, covered w -> selecting w chain visible l st ->
  (forall e, selected_in st p e -> selected_node st e /\ selectable w st p e) /\ (forall e, selected_node st e -> in_graph w e = true)
  /\ NoDup (sy_graph st) /\ NoDup (on_plane (sy_scene st) p).
Proof.
  intros w chain visible l st p W H. pose proof (selecting_linked _ _ _ _ _ W H) as B. split; [|split; [exact (b_nodes _ _ _ _ B)|split; [exact (b_nodup _ _ _ _ B)|apply (b_nodups _ _ _ _ B)]]].
  intros e I. split; [exact (b_follow _ _ _ _ B p e I)|]. split; [exact (b_has _ _ _ _ B p e I)|]. destruct (b_seen _ _ _ _ B p e I) as [K|[_ []]]. exact K.
Qed.

(** A selection made in the scene of a plane is what is selected there, whatever the others answer;
    if it is a new one, it is the selection of the graph, and in each plane what can be seen of it
    is selected. *)
Theorem C83_scene : forall w chain visible l st p want st', covered w -> selecting w chain visible l st -> does w (In_scene p want) st st' ->
  (forall e, selected_in st' p e <-> wanted_in w st p want e)
  /\ (~ (forall e, selected_in st p e <-> wanted_in w st p want e) -> (forall e, selected_node st' e <-> wanted_in w st p want e) /\ agree w st')
  /\ ((forall e, selected_in st p e <-> wanted_in w st p want e) -> st' = st).
Proof.
  intros w chain visible l st p want st' W H D. pose proof (selecting_linked _ _ _ _ _ W H) as B. destruct (does_8 _ _ _ _ D) as (d & E).
  destruct (in_scene_step w d p want st W B) as (s & E' & _ & _ & _ & S & N). rewrite E in E'. injection E' as <-. split; [exact S|]. split; [intros K; split; now apply N|].
  intros K. unfold gesture_on in E. rewrite (proj2 (same_list_no _ _)) in E; [congruence|]. intros e. rewrite nodup_In, filter_In, andb_true_iff. symmetry. apply K.
Qed.

(** A selection made in the graph is the selection of the graph; if it is a new one, in each plane
    what can be seen of it is selected. *)
Theorem C83_graph : forall w chain visible l st want st', covered w -> selecting w chain visible l st -> does w (In_graph want) st st' ->
  (forall e, selected_node st' e <-> wanted_node w want e)
  /\ (~ (forall e, selected_node st e <-> wanted_node w want e) -> agree w st')
  /\ ((forall e, selected_node st e <-> wanted_node w want e) -> st' = st).
Proof.
  intros w chain visible l st want st' W H D. pose proof (selecting_linked _ _ _ _ _ W H) as B. destruct (does_8 _ _ _ _ D) as (d & E).
  destruct (in_graph_step w d want st B) as (s & E' & _ & _ & _ & S & N). rewrite E in E'. injection E' as <-. split; [exact S|]. split; [exact N|].
  intros K. unfold gesture_on in E. rewrite (proj2 (same_list_no _ _)) in E; [congruence|]. intros e. rewrite nodup_In, filter_In. symmetry. apply K.
Qed.

(** Without lines shown or hidden in between, the views always agree. *)
Theorem C83_agree : forall w chain visible l st, covered w -> (forall f, ~ In (Lines f) l) -> selecting w chain visible l st -> agree w st /\ sy_visible st = visible.
Proof.
  intros w chain visible l st W F [d H]. assert (E : gestures w (8 + d) l (unselected chain visible) = Some st) by (cbn [plus]; now do 8 apply gestures_more). clear H.
  assert (A : agree w (unselected chain visible)) by (intros q e; unfold selected_in, selected_node; destruct q; cbn; tauto).
  change (sy_visible st = visible) with (sy_visible st = sy_visible (unselected chain visible)).
  pose proof (linked_start w chain visible) as B. revert A B E. generalize (unselected chain visible). induction l as [|g r IH]; intros s A B E; cbn [gestures] in E; [injection E as <-; now split|].
  assert (K : exists s', gesture_on w (8 + d) g s = Some s' /\ linked w s' /\ agree w s' /\ sy_visible s' = sy_visible s).
  { destruct g as [p want|want|f]; [| |destruct (F f); now left].
    - destruct (in_scene_step w d p want s W B) as (s' & E' & B' & _ & V & S & N). exists s'. split; [exact E'|]. split; [exact B'|]. split; [|exact V].
      unfold gesture_on in E'. set (l' := nodup Nat.eq_dec (filter (fun e => in_scene w p e && sy_visible s p e) want)) in *.
      destruct (same_list l' (on_plane (sy_scene s) p)) eqn:Q; [injection E' as <-; exact A|]. apply N. intros K. rewrite (proj2 (same_list_no _ _)) in Q; [discriminate|].
      intros e. unfold l'. rewrite nodup_In, filter_In, andb_true_iff. symmetry. apply K.
    - destruct (in_graph_step w d want s B) as (s' & E' & B' & _ & V & S & N). exists s'. split; [exact E'|]. split; [exact B'|]. split; [|exact V].
      unfold gesture_on in E'. set (l' := nodup Nat.eq_dec (filter (in_graph w) want)) in *.
      destruct (same_list l' (sy_graph s)) eqn:Q; [injection E' as <-; exact A|]. apply N. intros K. rewrite (proj2 (same_list_no _ _)) in Q; [discriminate|].
      intros e. unfold l'. rewrite nodup_In, filter_In. symmetry. apply K. }
  destruct K as (s' & E' & B' & A' & V'). rewrite E' in E. rewrite <- V'. apply IH; [intros f I; apply (F f); now right|exact A'|exact B'|exact E].
Qed.

(** Showing or hiding lines none of which is selected selects and unselects nothing. *)
Theorem C83_lines : forall w chain visible l st f st', covered w -> selecting w chain visible l st -> does w (Lines f) st st' ->
  (forall p e, sy_visible st' p e = f p e)
  /\ ((forall p e, selected_in st p e -> f p e = true) -> sy_graph st' = sy_graph st /\ sy_scene st' = sy_scene st).
Proof.
  intros w chain visible l st f st' W H D. pose proof (selecting_linked _ _ _ _ _ W H) as B. destruct (does_8 _ _ _ _ D) as (d & E).
  destruct (lines_all w d f st W B) as (s & E' & _ & _ & V). rewrite E in E'. injection E' as <-. split; [exact V|]. intros K. unfold gesture_on in E.
  assert (T : forall p l0 s0, (forall e, In e l0 -> f p e = true) -> each (fun e st => if f p e then Some st else hide_item w (8 + d) p e st) l0 s0 = Some s0).
  { intros p l0. induction l0 as [|e r IH]; intros s0 Q; [reflexivity|]. cbn [each]. rewrite (Q e) by now left. apply IH. intros e' I. apply Q. now right. }
  cbn [each] in E. rewrite (T PYZ) in E by (intros e I; exact (K PYZ e I)). rewrite (T PZX) in E by (intros e I; exact (K PZX e I)). rewrite (T PXY) in E by (intros e I; exact (K PXY e I)).
  injection E as <-. split; reflexivity.
Qed.

(** ** A line (0) in YZ and ZX, a polygon in XY (1), one in YZ (2), a node that no plane shows (3) *)

Definition some_items : items := mkItems (fun e => e <? 4)
  (fun p e => match p with PYZ => (e =? 0) || (e =? 2) | PZX => e =? 0 | PXY => e =? 1 end).
Definition all_seen : Plane -> nat -> bool := fun _ _ => true.
Definition no_line : Plane -> nat -> bool := fun _ e => negb (e =? 0).
Lemma some_covered : covered some_items.
Proof. intros [] [|[|[|[|e]]]]; cbn; congruence. Qed.
Definition all_free (g : list nat) (s : planes3 (list nat)) (chain : bool) (v : Plane -> nat -> bool) : sync := mkSync g s false (all_planes false) false chain v.
Ltac ran := exists 8; vm_compute; reflexivity.

(** Wrong: that the views agree after lines were shown.  A line whose node is selected is not
    selected once shown. *)
Theorem C83_shown_refuted : ~ (forall w chain visible l f st, covered w -> selecting w chain visible (l ++ [Lines f]) st -> agree w st).
Proof.
  intros H. assert (A : exists st, selecting some_items false no_line ([In_graph [0]] ++ [Lines all_seen]) st /\ sy_graph st = [0] /\ on_plane (sy_scene st) PZX = [] /\ sy_visible st PZX 0 = true).
  { eexists. split; [ran|]. now repeat split. }
  destruct A as (st & A & G & Z & V). apply (H some_items false no_line [In_graph [0]] all_seen st some_covered) in A. destruct (A PZX 0) as [_ K]. unfold selected_in in K. rewrite Z in K. apply K.
  unfold selected_node. rewrite G. split; [now left|]. split; [reflexivity|exact V].
Qed.

(** Wrong: that hiding lines leaves selected what can still be seen everywhere.  With a line and a
    polygon of another plane selected, the polygon is no more once the line is hidden. *)
Theorem C83_hidden_refuted : ~ (forall w chain visible l st f st' e, covered w -> selecting w chain visible l st -> does w (Lines f) st st' ->
  (forall p, f p e = true) -> selected_node st e -> selected_node st' e).
Proof.
  intros H. assert (S : selecting some_items false all_seen [In_graph [0; 1]] (all_free [0; 1] (mkPlanes [0] [0] [1]) false all_seen)) by ran.
  assert (D : exists st, does some_items (Lines no_line) (all_free [0; 1] (mkPlanes [0] [0] [1]) false all_seen) st /\ sy_graph st = []) by (eexists; split; [ran|reflexivity]).
  destruct D as (st & D & G). assert (A := H some_items false all_seen _ _ no_line st 1 some_covered S D (fun _ => eq_refl)). unfold selected_node in A. rewrite G in A. apply A. right. now left.
Qed.

(** ** Sessions *)

(** Two polygons selected in two planes are not selected together by the scenes: the second plane
    takes over.  In the graph they can be. *)
Definition polygon_then_other : sync := all_free [2] (mkPlanes [2] [] []) true all_seen.
Definition all_nodes : sync := all_free [0; 1; 2; 3] (mkPlanes [0; 2] [0] [1]) true all_seen.
Example C83_scene_example : covered some_items /\ selecting some_items true all_seen [In_scene PXY [1]] (all_free [1] (mkPlanes [] [] [1]) true all_seen)
  /\ does some_items (In_scene PYZ [2; 1]) (all_free [1] (mkPlanes [] [] [1]) true all_seen) polygon_then_other
  /\ selected_in polygon_then_other PYZ 2 /\ ~ selected_node polygon_then_other 1.
Proof.
  split; [exact some_covered|]. split; [ran|]. split; [ran|]. split; [now left|]. cbn. intros [H|[]]. discriminate.
Qed.
Example C83_graph_example : selecting some_items true all_seen [In_scene PXY [1]; In_scene PYZ [2]] polygon_then_other
  /\ does some_items (In_graph [0; 1; 2; 3; 7]) polygon_then_other all_nodes
  /\ selected_in all_nodes PZX 0 /\ selected_in all_nodes PXY 1 /\ selected_node all_nodes 3.
Proof. split; [ran|]. split; [ran|]. cbn. intuition. Qed.
Example C83_never_example : selecting some_items true all_seen [In_scene PXY [1]; In_scene PYZ [2]; In_graph [0; 1; 2; 3; 7]] all_nodes
  /\ released all_nodes /\ agree some_items all_nodes.
Proof.
  split; [ran|]. split; [repeat split; now intros []|]. intros [] e; unfold selected_in, selected_node, selectable; cbn; destruct e as [|[|[|[|e]]]]; cbn; intuition (try discriminate).
Qed.
(** A line is hidden that is not selected. *)
Example C83_lines_example : exists st, does some_items (Lines no_line) polygon_then_other st /\ sy_graph st = [2] /\ sy_visible st PZX 0 = false.
Proof. eexists. split; [ran|]. now split. Qed.
(** The items of a board after an edit, and its graph. *)
Example C83_covered_example : SceneSpec.reached PropertiesEdit.plain_tools PropertiesScene.three_boxes PropertiesEdit.coarse [SceneSpec.Run_steps] PropertiesScene.boxes_session
  /\ SceneSpec.links_sound (EditModel.ss_board PropertiesScene.boxes_session) PropertiesScene.boxes_links
  /\ StructureModel.populate (EditModel.ss_board PropertiesScene.boxes_session) PXY PropertiesStructure.room = ManagerModel.Done PropertiesStructure.boxes_items
  /\ 20 < length PropertiesStructure.boxes_items.
Proof.
  split; [exact (proj1 PropertiesScene.C72_example)|]. split; [exact PropertiesScene.boxes_sound|]. split; [exact (proj1 (proj2 PropertiesStructure.C81_more_example))|].
  vm_compute. lia.
Qed.

Print Assumptions C83_covered.
Print Assumptions C83_ends.
Print Assumptions C83_never.
Print Assumptions C83_scene.
Print Assumptions C83_graph.
Print Assumptions C83_agree.
Print Assumptions C83_lines.
Print Assumptions C83_shown_refuted.
Print Assumptions C83_hidden_refuted.
