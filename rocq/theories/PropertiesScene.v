(** Properties C72 to C74: what the graph view shows of a board. *)
From Coq Require Import List Arith Bool Lia QArith Relations.Relation_Operators.
From Verif Require Import IntervalModel ManagerModel ManagerSpec ManagerMoreProofs GeomModel BoardModel BoardSpec BoardExamples PropertiesDiag EditModel EditSpec.
From Verif Require Import SceneModel SceneSpec SceneProofs SceneWalkProofs SceneValidProofs SceneSessionProofs SceneOnceProofs SceneColumnProofs SceneThingProofs SelectModel SelectSpec SelectProofs.
From Verif Require Import PropertiesEdit.
Import ListNotations.
Open Scope nat_scope.

Section Reached.
Context (tl : tools) (b : board) (x : settings) (l : list deed) (ss : session) (R : reached tl b x l ss).
Let es := map g_edges (b_polygons b).
Let n := length (b_edges b).
Lemma reached_valid (P : Prop) : (P -> forallb not_edge_dialog l = true) -> valid P n 0 es (ss_board ss).
Proof.
  intros N. destruct R as (B & Pm & So & H). exact (proj1 (fine_all P n es tl Pm So l _ _ N H (fine_loaded P n es b x (built_valid P b B)))).
Qed.
Lemma reached_nodup : NoDup (concat (map g_edges (b_polygons (ss_board ss)))).
Proof. rewrite (va_polys _ _ _ _ _ (reached_valid False (fun f => match f with end))). unfold es. destruct R as (B & _). rewrite built_seq by assumption. apply seq_NoDup. Qed.
Lemma reached_sane a : sane (on_axis (b_axes (ss_board ss)) a).
Proof. exact (va_axes _ _ _ _ _ (reached_valid False (fun f => match f with end)) a). Qed.
Lemma reached_there : edges_there (ss_board ss).
Proof.
  pose proof (reached_valid False (fun f => match f with end)) as V. destruct R as (B & _).
  exact (edges_there_of _ _ _ (built_shared b B) (va_len _ _ _ _ _ V) (va_polys _ _ _ _ _ V)).
Qed.
End Reached.

(** * C72 *)

(** Whatever the user does, the view can be made, and has exactly one node for each
    object of the board and no other, but for those of the planes and axes. *)
Theorem C72_nodes : forall tl b x l ss k, reached tl b x l ss -> links_sound (ss_board ss) k ->
  exists sc, populate (ss_board ss) k = Done sc
    /\ (forall e, on_board (ss_board ss) e -> exists! n, stands_for sc n e) /\ (forall n e, stands_for sc n e -> on_board (ss_board ss) e).
Proof.
  intros tl b x l ss k R L. destruct (populate_ends (ss_board ss) k (reached_there _ _ _ _ _ R) L) as (sc & P). exists sc. split; [exact P|].
  destruct (nodes_made _ _ _ (populate_nodes _ _ _ P)) as [_ H]. split.
  - intros e O. apply H in O. destruct O as (nd & I & W). apply In_nth_error in I. destruct I as (i & I). exists i. split; [now exists nd|].
    intros j J. apply (stands_once (ss_board ss) k (reached_nodup _ _ _ _ _ R) sc i j e P); [now exists nd|exact J].
  - intros i e (nd & I & W). apply H. exists nd. split; [now apply nth_error_In in I|exact W].
Qed.

(** There is a wire from one node to another exactly if the second's object was made out
    of the first's, and there is no wire twice. *)
Theorem C72_wires : forall tl b x l ss k sc, reached tl b x l ss -> populate (ss_board ss) k = Done sc ->
  NoDup (sc_wires sc)
  /\ (forall m n y z, stands_for sc m y -> stands_for sc n z -> wired sc m n <-> comes_from (ss_board ss) k z y)
  /\ (forall m n, wired sc m n -> exists y z, stands_for sc m y /\ stands_for sc n z).
Proof.
  intros tl b x l ss k sc R P. split; [exact (proj1 (populate_wires _ _ _ P))|]. split; [|exact (wired_things _ _ _ P)].
  intros m n y z Sm Sn. pose proof (wires_are_links _ _ _ P y z) as W. pose proof (stands_once (ss_board ss) k (reached_nodup _ _ _ _ _ R) sc) as U.
  destruct (nodes_made _ _ _ (populate_nodes _ _ _ P)) as [_ H].
  assert (On : forall i e, stands_for sc i e -> on_board (ss_board ss) e) by (intros i e (nd & I & We); apply H; exists nd; split; [now apply nth_error_In in I|exact We]).
  split.
  - intros Q. assert (Z : exists m n, stands_for sc m y /\ stands_for sc n z /\ wired sc m n) by eauto. apply W in Z. tauto.
  - intros C. destruct (proj2 W (conj (On _ _ Sm) (conj (On _ _ Sn) C))) as (m' & n' & Sm' & Sn' & Q).
    now rewrite (U m m' y P Sm Sm'), (U n n' z P Sn Sn').
Qed.

(** Every node is in the frame of its plane, of its polygon or of its axis. *)
Theorem C72_frames : forall b k sc n e, populate b k = Done sc -> stands_for sc n e ->
  exists nd m frame, nth_error (sc_nodes sc) n = Some nd /\ nd_inside nd = Some m /\ nth_error (sc_nodes sc) m = Some frame /\ belongs_in b e (nd_what frame).
Proof.
  intros b k sc n e P (nd & E & W). pose proof (nodes_placed b k sc P n nd E) as H. unfold in_place in H. rewrite W in H. destruct H as (m & f & I & _ & F & B). now exists nd, m, f.
Qed.

(** No wire is missing because the other object is not shown: what an object of the board was
    made out of is on the board.  With the dialog of edges this is not proved of the
    conflict that an edge solves. *)
Theorem C72_whole : forall tl b x l ss k y z, reached tl b x l ss -> links_sound (ss_board ss) k ->
  on_board (ss_board ss) z -> comes_from (ss_board ss) k z y ->
  forallb not_edge_dialog l = true \/ (forall i, z <> EEdge i) -> on_board (ss_board ss) y.
Proof.
  intros tl b x l ss k y z R L O C [N|N].
  - pose proof (reached_valid tl b x l ss R True (fun _ => N)) as V. destruct R as (B & _). exact (sound_of True _ _ _ _ (built_shared b B) V k L y z O C (fun _ _ => I)).
  - pose proof (reached_valid tl b x l ss R False (fun f => match f with end)) as V. destruct R as (B & _).
    exact (sound_of False _ _ _ _ (built_shared b B) V k L y z O C (fun i E => N i E)).
Qed.

(** Three boxes beside each other; the left sides are so close that their lines are merged,
    twice, and so are the right sides. *)
Definition three_boxes : board :=
  Eval vm_compute in box_on (box_on (box_on (empty_board (Some AIR)) CONDUCTOR 0 0 20 0 20) CONDUCTOR 0 (1 # 2) (41 # 2) 40 60) CONDUCTOR 0 1 21 80 100.
Lemma three_boxes_built : built three_boxes.
Proof.
  apply (built_more PXY (Some CONDUCTOR) 0 (range_z 0 1) (box_points (mk_pt 1 80) (mk_pt 21 100)) (box_on (box_on (empty_board (Some AIR)) CONDUCTOR 0 0 20 0 20) CONDUCTOR 0 (1 # 2) (41 # 2) 40 60)); [|vm_compute; reflexivity].
  apply (built_more PXY (Some CONDUCTOR) 0 (range_z 0 1) (box_points (mk_pt (1 # 2) 40) (mk_pt (41 # 2) 60)) (box_on (empty_board (Some AIR)) CONDUCTOR 0 0 20 0 20)); [|vm_compute; reflexivity].
  apply (built_more PXY (Some CONDUCTOR) 0 (range_z 0 1) (box_points (mk_pt 0 0) (mk_pt 20 20)) (empty_board (Some AIR))); [constructor|vm_compute; reflexivity].
Qed.
Definition boxes_session : session := Eval vm_compute in session_of (run_all_steps plain_tools (loaded three_boxes coarse)).
Lemma boxes_reached : reached plain_tools three_boxes coarse [Run_steps] boxes_session.
Proof. split; [exact three_boxes_built|]. split; [exact isort_perm|]. split; [exact isort_sorts|]. vm_compute. reflexivity. Qed.
(** The links: policies come from the sides or from too close policies, five lines are in each interval. *)
Definition boxes_links : links :=
  let b := ss_board boxes_session in
  mk_links
    (fun a i =>
       map (EClose a) (positions (fun c => match tc_solution c with Some j => (j =? i)%nat | None => false end) (ax_conflicts (on_axis (b_axes b) a)))
       ++ map EEdge (positions (fun e => match axis_of_seg (e_plane e) (seg_axis (e_seg e)), e_policy e with
                                         | Some c, Some j => axis_eqb c a && (j =? i)%nat
                                         | _, _ => false
                                         end) (b_edges b)))
    (fun _ _ => []) (fun _ i => Some (i / 5)) (fun _ _ => None).
Lemma below (n : nat) (f : nat -> bool) : forallb f (seq 0 n) = true -> forall i, i < n -> f i = true.
Proof. intros H i L. rewrite forallb_forall in H. apply H. apply in_seq. lia. Qed.
Definition there_b (b : board) (x : entity) : bool :=
  match x with
  | EClose a i => i <? length (ax_conflicts (on_axis (b_axes b) a))
  | EEdge i => existsb (fun g => memb i (g_edges g)) (b_polygons b)
  | _ => false
  end.
Lemma there_b_spec b x : there_b b x = true -> on_board b x /\ origin_kind x.
Proof.
  destruct x as [i|i|i|a i|q i|a i|a i|a i|a i|a i]; cbn; try discriminate; intros H; (split; [|exact I]).
  - apply existsb_exists in H. destruct H as (g & G & H). unfold memb in H. apply existsb_exists in H. destruct H as (j & J & E). apply Nat.eqb_eq in E. subst j. apply In_nth_error in G. destruct G as (n & G). now exists n, g.
  - now apply Nat.ltb_lt.
Qed.
Lemma boxes_sound : links_sound (ss_board boxes_session) boxes_links.
Proof.
  split; [|split; [|split]].
  - intros a i x L I. apply there_b_spec.
    assert (T : forallb (fun i => forallb (there_b (ss_board boxes_session)) (lk_origins boxes_links a i)) (seq 0 (length (ax_policies (on_axis (b_axes (ss_board boxes_session)) a)))) = true) by (destruct a; vm_compute; reflexivity).
    pose proof (below _ _ T i L) as F. cbn beta in F. rewrite forallb_forall in F. now apply F.
  - intros a i j _ [].
  - intros a i j L E. cbn [boxes_links lk_interval] in E. injection E as <-. cbn [on_board].
    assert (T : forallb (fun i => i / 5 <? length (ax_segments (on_axis (b_axes (ss_board boxes_session)) a))) (seq 0 (length (ax_lines (on_axis (b_axes (ss_board boxes_session)) a)))) = true) by (destruct a; vm_compute; reflexivity).
    pose proof (below _ _ T i L) as F. cbn beta in F. now apply Nat.ltb_lt.
  - intros a i j _ E. discriminate.
Qed.
Definition boxes_scene : scene := Eval vm_compute in match populate (ss_board boxes_session) boxes_links with Done sc => sc | _ => mk_scene [] [] end.
Lemma boxes_populated : populate (ss_board boxes_session) boxes_links = Done boxes_scene.
Proof. vm_compute. reflexivity. Qed.
Example C72_example : reached plain_tools three_boxes coarse [Run_steps] boxes_session /\ links_sound (ss_board boxes_session) boxes_links
  /\ populate (ss_board boxes_session) boxes_links = Done boxes_scene /\ length (sc_nodes boxes_scene) = 77 /\ length (sc_wires boxes_scene) = 66
  /\ on_board (ss_board boxes_session) (EClose AX 2) /\ comes_from (ss_board boxes_session) boxes_links (EPolicy AX 8) (EClose AX 2)
  /\ forallb not_edge_dialog [Run_steps] = true.
Proof.
  split; [exact boxes_reached|]. split; [exact boxes_sound|]. split; [exact boxes_populated|]. split; [reflexivity|]. split; [reflexivity|]. split; [cbn; lia|].
  split; [|reflexivity]. eapply policy_from_origin; [reflexivity|]. vm_compute. now left.
Qed.

(** * C73 *)

(** What is highlighted with a node: exactly the nodes of what its object descends from
    and of what descends from its object.  The walk ends. *)
Theorem C73_chain : forall tl b x l ss k sc n y, reached tl b x l ss -> populate (ss_board ss) k = Done sc -> stands_for sc n y ->
  exists N, forall fuel, N < fuel -> exists ch, get_chain fuel sc n = Done ch /\ NoDup ch
    /\ (forall m, In m ch -> exists z, stands_for sc m z)
    /\ (forall m z, stands_for sc m z -> In m ch <-> descends_from (ss_board ss) k y z \/ descends_from (ss_board ss) k z y).
Proof.
  intros tl b x l ss k sc n y R P Sn. exists (length (sc_nodes sc)). intros fuel F.
  destruct (chain sc fuel n (populate_inside _ _ _ P) F) as (ch & E & D & I). exists ch. split; [exact E|]. split; [exact D|].
  pose proof (stands_once (ss_board ss) k (reached_nodup _ _ _ _ _ R) sc) as U. split.
  - intros m M. apply I in M. destruct M as [M|M]; apply (leads_ends _ _ _ P) in M; destruct M as (u & v & A & B); eauto.
  - intros m z Sm. rewrite (I m), (leads_descends _ _ _ P (fun a c e => U a c e P) m n z y Sm Sn), (leads_descends _ _ _ P (fun a c e => U a c e P) n m y z Sn Sm). reflexivity.
Qed.

(** The interval between the merged lines, on the first axis: six sides, ten policies, four pairs of too close ones, five lines. *)
Example C73_example : stands_for boxes_scene 33 (EInterval AX 0)
  /\ (exists ch, get_chain 100 boxes_scene 33 = Done ch /\ length ch = 25 /\ In 5 ch) /\ stands_for boxes_scene 5 (EEdge 1)
  /\ descends_from (ss_board boxes_session) boxes_links (EInterval AX 0) (EPolicy AX 8).
Proof.
  split; [eexists; split; reflexivity|]. split; [eexists; split; [vm_compute; reflexivity|]; split; [reflexivity|cbn; tauto]|]. split; [eexists; split; reflexivity|].
  apply t1n_step. split; [vm_compute; lia|]. split; [vm_compute; lia|]. eapply interval_from_policy; [reflexivity|now left].
Qed.

(** * C74 *)

(** The columns that policies and too close policies are put in can be computed; every one is
    right of what it was made out of, and as far to the left as that allows. *)
Theorem C74_columns : forall tl b x l ss k sc, reached tl b x l ss -> solutions_sound (ss_board ss) k -> populate (ss_board ss) k = Done sc ->
  exists column N, forall fuel n y, N < fuel -> stands_for sc n y ->
    (a_policy y -> policy_column fuel sc n = Done (column y)
       /\ (forall z, too_close_ones z -> made_of (ss_board ss) k y z -> column z < column y)
       /\ (column y = 1 \/ exists z, too_close_ones z /\ made_of (ss_board ss) k y z /\ column y = column z + 1))
    /\ (too_close_ones y -> close_column fuel sc n = Done (column y)
       /\ (forall z, a_policy z -> made_of (ss_board ss) k y z -> column z < column y)
       /\ exists z, a_policy z /\ made_of (ss_board ss) k y z /\ column y = column z + 1).
Proof.
  intros tl b x l ss k sc R So P. exact (board_columns _ _ _ P (reached_nodup _ _ _ _ _ R) (reached_sane _ _ _ _ _ R) So).
Qed.
(** Policies in the columns 1, 3 and 5, too close ones in the columns 2 and 4. *)
Example C74_example : solutions_sound (ss_board boxes_session) boxes_links
  /\ stands_for boxes_scene 23 (EPolicy AX 0) /\ policy_column 100 boxes_scene 23 = Done 1
  /\ stands_for boxes_scene 19 (EClose AX 0) /\ close_column 100 boxes_scene 19 = Done 2
  /\ stands_for boxes_scene 29 (EPolicy AX 6) /\ policy_column 100 boxes_scene 29 = Done 3
  /\ stands_for boxes_scene 21 (EClose AX 2) /\ close_column 100 boxes_scene 21 = Done 4
  /\ stands_for boxes_scene 31 (EPolicy AX 8) /\ policy_column 100 boxes_scene 31 = Done 5.
Proof.
  split.
  - intros a i c j _ I. unfold boxes_links in I. cbn [lk_origins] in I. apply in_app_or in I. destruct I as [I|I]; apply in_map_iff in I; destruct I as (n & E & I); [|discriminate].
    injection E as <- <-. split; [reflexivity|]. apply in_positions_spec in I. destruct I as (t & T & Q). exists t. split; [exact T|]. destruct (tc_solution t) as [m|]; [|discriminate]. apply Nat.eqb_eq in Q. now subst.
  - repeat (split; [first [eexists; split; reflexivity|vm_compute; reflexivity]|]). vm_compute. reflexivity.
Qed.

Print Assumptions C72_nodes.
Print Assumptions C72_wires.
Print Assumptions C72_frames.
Print Assumptions C72_whole.
Print Assumptions C73_chain.
Print Assumptions C74_columns.
