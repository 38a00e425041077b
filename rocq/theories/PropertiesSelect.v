(** Property C75: what the graph view highlights and shows. *)
From Coq Require Import List Arith Bool Lia QArith Relations.Relation_Operators.
From Verif Require Import IntervalModel ManagerModel ManagerSpec GeomModel BoardModel BoardSpec EditModel SceneModel SceneSpec SceneProofs SceneWalkProofs.
From Verif Require Import SelectModel SelectSpec SelectProofs SelectShownProofs PropertiesEdit PropertiesScene.
Import ListNotations.
Open Scope nat_scope.

Lemma scene_tree b k sc : populate b k = Done sc -> forall i nd m, nth_error (sc_nodes sc) i = Some nd -> nd_inside nd = Some m -> m < i.
Proof.
  intros P i nd m E I. pose proof (nodes_placed b k sc P i nd E) as H. unfold in_place in H. destruct (nd_what nd) as [p|a|x]; [congruence|congruence|]. destruct H as (m' & nm & I' & L & _). congruence.
Qed.

(** Whatever is clicked, here and in the other views, and however the mode is changed: the
    nodes highlighted are those related to a selected one by wires; in the mode
    SELECTED_CHAIN the nodes to be seen are the selected and the highlighted ones and the
    frames around them, in the mode EVERYTHING all. *)
Theorem C75_shown : forall b k sc mode l, populate b k = Done sc -> Forall (about sc) l ->
  forall fuel, length (sc_nodes sc) < fuel -> exists chain_mode st, gestures_done fuel sc mode l = Done (chain_mode, st)
    /\ (forall n, highlighted st n <-> related sc st n)
    /\ (forall n, shown sc st n <-> if chain_mode then exists a, (selected st a \/ related sc st a) /\ (n = a \/ inside sc a n) else n < length (sc_nodes sc)).
Proof.
  intros b k sc mode l P A fuel F.
  destruct (gestures_fine sc fuel F (populate_inside b k sc P) (scene_tree b k sc P) mode l A) as ([c st] & E & Fi). exists c, st. split; [exact E|].
  assert (O : ok sc st) by (destruct c; cbn in Fi; apply Fi). assert (H : forall n, highlighted st n <-> related sc st n) by (intros n; now apply ok_highlighted). split; [exact H|].
  destruct c; cbn in Fi; destruct Fi as [_ Fi]; intros n.
  - rewrite (Fi n). unfold marked. split; intros (a & [M|M] & I); exists a; (split; [|exact I]); [now left|right; now apply H|now left|right; now apply H].
  - split; [intros (L & _); exact L|apply Fi].
Qed.

(** What each gesture makes of the selection: a click selects or unselects the node clicked,
    a selection made elsewhere is taken over, Escape clears it, the rest keeps it; but for
    the change to the mode SELECTED_CHAIN. *)
Theorem C75_selection : forall b k sc mode l g fuel, populate b k = Done sc -> Forall (about sc) l -> about sc g -> g <> Show_selected_chain -> length (sc_nodes sc) < fuel ->
  exists c st c' st', gestures_done fuel sc mode l = Done (c, st) /\ gesture_done fuel sc (c, st) g = Done (c', st')
    /\ forall m, selected st' m <->
       match g with
       | Click true n => selected st m \/ (m = n /\ shown sc st n)
       | Click false n => selected st m /\ m <> n
       | Elsewhere ns => In m ns
       | Escape => False
       | _ => selected st m
       end.
Proof.
  intros b k sc mode l g fuel P A Ag Ng F.
  destruct (gestures_fine sc fuel F (populate_inside b k sc P) (scene_tree b k sc P) mode l A) as ([c st] & E & Fi).
  destruct (gesture_fine sc fuel F (populate_inside b k sc P) (scene_tree b k sc P) (c, st) g Fi Ag) as ([c' st'] & E' & _ & S'). exists c, st, c', st'. split; [exact E|]. split; [exact E'|].
  intros m. rewrite (S' Ng m). destruct g as [[|] n|n|r| | |]; cbn; try reflexivity. contradiction.
Qed.

Example C75_example : populate (ss_board boxes_session) boxes_links = Done boxes_scene
  /\ Forall (about boxes_scene) [Elsewhere [40; 45]; Click true 44; Release 44; Click false 40]
  /\ exists st, gestures_done 100 boxes_scene true [Elsewhere [40; 45]; Click true 44; Release 44; Click false 40] = Done (true, st)
     /\ selected_nodes boxes_scene st = [45] /\ highlighted_nodes boxes_scene st = [16; 50; 71; 72; 73; 74; 75].
Proof.
  split; [exact boxes_populated|]. split; [constructor; [intros n [<-|[<-|[]]]; cbn; lia|repeat (constructor; [cbn; lia|]); constructor]|].
  eexists. split; [vm_compute; reflexivity|]. split; vm_compute; reflexivity.
Qed.

(** A finding.  Changing to the mode SELECTED_CHAIN does not keep the selection: of two
    selected nodes that are not related, one is no longer selected, nor to be seen. *)
Theorem C75_switch_refuted : exists tl b x l ss k sc fuel st st' n,
  reached tl b x l ss /\ links_sound (ss_board ss) k /\ populate (ss_board ss) k = Done sc /\ length (sc_nodes sc) < fuel
  /\ gestures_done fuel sc false [Click true 40; Click true 45] = Done (false, st) /\ gesture_done fuel sc (false, st) Show_selected_chain = Done (true, st')
  /\ selected st n /\ ~ selected st' n /\ ~ shown sc st' n.
Proof.
  exists plain_tools, three_boxes, coarse, [Run_steps], boxes_session, boxes_links, boxes_scene, 100. do 2 eexists. exists 45.
  split; [exact boxes_reached|]. split; [exact boxes_sound|]. split; [exact boxes_populated|]. split; [cbn; lia|]. split; [vm_compute; reflexivity|]. split; [vm_compute; reflexivity|].
  split; [vm_compute; reflexivity|]. split; [vm_compute; discriminate|]. intros (_ & H & _). vm_compute in H. discriminate.
Qed.

Print Assumptions C75_shown.
Print Assumptions C75_selection.
Print Assumptions C75_switch_refuted.
