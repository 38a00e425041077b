(** Boards as they are built. *)
From Coq Require Import List Arith Bool Lia QArith Qabs.
From Verif Require Import IntervalModel ManagerModel ManagerProofs GeomModel GeomSpec GeomProofs.
From Verif Require Import BoardModel BoardSpec BoardProofs BoardColinearProofs.
Import ListNotations.

Record sound (b : board) : Prop := {
  so_fresh : forall i e, edge_at b i e -> fresh_edge e;
  so_proper : forall k g, nth_error (b_polygons b) k = Some g -> proper_polygon b g;
  so_owned : edges_owned b;
  so_range : forall k g i, nth_error (b_polygons b) k = Some g -> In i (g_edges g) -> (i < length (b_edges b))%nat;
  so_rest : b_angles b = [] /\ b_ce b = mk_space [] [] [] /\ b_eip b = mk_space [] [] [] /\ b_zones b = mk_space [] [] []
    /\ b_axes b = mk_space (mk_axis [] [] [] []) (mk_axis [] [] [] []) (mk_axis [] [] [] []);
}.

Lemma edges_at_more b b' l es : (exists t, b_edges b' = b_edges b ++ t) -> edges_at b l es -> edges_at b' l es.
Proof.
  intros (t & E) H. unfold edges_at in *. induction H as [|i e l es Ei F IH]; constructor; [|assumption].
  unfold edge_at in *. rewrite E, nth_error_app1; [assumption|]. apply nth_error_Some. congruence.
Qed.

Lemma proper_more b b' g : (exists t, b_edges b' = b_edges b ++ t) -> proper_polygon b g -> proper_polygon b' g.
Proof. intros T (C & B & es & E & R). split; [assumption|]. split; [assumption|]. exists es. split; [now apply (edges_at_more b)|assumption]. Qed.

Lemma edges_at_new l new : edges_at (set_edges (empty_board None) (l ++ new)) (seq (length l) (length new)) new.
Proof.
  unfold edges_at, edge_at. cbn. revert l. induction new as [|e new IH]; intros l; cbn; constructor.
  - rewrite nth_error_app2, Nat.sub_diag by lia. reflexivity.
  - specialize (IH (l ++ [e])). rewrite app_length, Nat.add_1_r, <- app_assoc in IH. exact IH.
Qed.

Lemma built_sound b : built b -> sound b.
Proof.
  induction 1 as [bg|p m priority z points b b' _ IH E].
  - constructor; cbn.
    + intros i e H. unfold edge_at in H. destruct i; discriminate.
    + intros k g H. destruct k; discriminate.
    + split; [intros i e H; unfold edge_at in H; destruct i; discriminate|intros i k k' g g' H; destruct k; discriminate].
    + intros k g i H. destruct k; discriminate.
    + repeat split.
  - unfold add_polygon in E. destruct (detect_bounding points) as [bounding| |] eqn:B; cbn [bind] in E; try discriminate.
    destruct (polygon_edges points) as [es| |] eqn:P; cbn [bind] in E; try discriminate.
    set (new := map (new_edge p) es) in *. injection E as <-. set (l := b_edges b). set (g0 := mk_polygon p m priority z points bounding (seq (length l) (length new)) []).
    destruct IH as [Fr Pr [Ow Un] Ra Re].
    assert (Len : forall i e, edge_at (set_edges (set_polygons b (b_polygons b ++ [g0])) (l ++ new)) i e -> edge_at b i e \/ ((length l <= i < length l + length new)%nat /\ In e new)).
    { intros i e H. unfold edge_at in *. cbn in H. destruct (Nat.lt_ge_cases i (length l)) as [L|L].
      - rewrite nth_error_app1 in H by assumption. now left.
      - rewrite nth_error_app2 in H by assumption. right. split; [|eapply nth_error_In; exact H]. apply nth_lt in H. lia. }
    constructor.
    + intros i e H. apply Len in H. destruct H as [H|[_ H]]; [now apply (Fr i)|]. unfold new in H. apply in_map_iff in H. destruct H as (x & <- & _).
      cbn. repeat split.
    + intros k g H. cbn in H. apply nth_snoc in H. destruct H as [H|[-> ->]].
      * apply (proper_more b); [cbn; now exists new|]. now apply (Pr k).
      * split; [reflexivity|]. split; [now apply detect_bounding_tight|]. exists new. split; [exact (edges_at_new l new)|].
        assert (Map : map (fun e => (e_seg e, e_normal e)) new = es).
        { unfold new. rewrite map_map. cbn. clear. induction es as [|[s n] es IH]; cbn; [reflexivity|]. now rewrite IH. }
        split; [|split].
        -- intros e I. unfold new in I. apply in_map_iff in I. destruct I as (x & <- & _). reflexivity.
        -- destruct (polygon_edges_in points es P) as [K _]. cbn [g_points]. change (g_points g0) with points. rewrite <- K, <- Map, map_map. reflexivity.
        -- change (g_points g0) with points. now rewrite Map.
    + split.
      * intros i e H. pose proof H as H0. apply Len in H. destruct H as [H|[H _]].
        -- destruct (Ow i e H) as (k & g & G & I). exists k, g. split; [|assumption]. cbn. rewrite nth_error_app1; [assumption|]. eapply nth_lt; exact G.
        -- exists (length (b_polygons b)), g0. split; [cbn; rewrite nth_error_app2, Nat.sub_diag by lia; reflexivity|]. cbn. apply in_seq. lia.
      * intros i k k' g g' G G' I I'. cbn in G, G'. apply nth_snoc in G, G'.
        destruct G as [G|[-> ->]], G' as [G'|[-> ->]].
        -- now apply (Un i k k' g g').
        -- exfalso. cbn in I'. apply in_seq in I'. pose proof (Ra k g i G I). fold l in H. lia.
        -- exfalso. cbn in I. apply in_seq in I. pose proof (Ra k' g' i G' I'). fold l in H. lia.
        -- reflexivity.
    + intros k g i G I. cbn in G |- *. rewrite app_length. apply nth_snoc in G. destruct G as [G|[-> ->]].
      * pose proof (Ra k g i G I). fold l in H. lia.
      * cbn in I. apply in_seq in I. lia.
    + cbn. exact Re.
Qed.

Lemma forall2_in {A B} (R : A -> B -> Prop) l l' : Forall2 R l l' -> forall x, In x l -> exists y, In y l' /\ R x y.
Proof.
  induction 1 as [|a b l l' H F IH]; [intros x []|]. intros x [<-|I]; [exists b; split; [now left|assumption]|].
  destruct (IH x I) as (y & J & K). exists y. split; [now right|assumption].
Qed.

Lemma built_in_place b : built b -> edges_in_place b.
Proof.
  intros H k g G i I. destruct (so_proper b (built_sound b H) k g G) as (_ & _ & es & E & P & _).
  destruct (forall2_in _ _ _ E i I) as (e & J & Ei). exists e. split; [assumption|now apply P].
Qed.

Lemma built_no_eip b p : built b -> no_eip b p.
Proof.
  intros H. destruct (built_sound b H) as [Fr Pr _ _ (_ & _ & R & _)]. split; [rewrite R; now destruct p|]. split.
  - intros i e n E. destruct (Fr i e E) as (_ & _ & -> & _). intros [].
  - intros i g n G. destruct (Pr i g G) as (-> & _). intros [].
Qed.

Lemma built_no_ce b : built b -> no_ce b.
Proof.
  intros H. destruct (built_sound b H) as [Fr Pr _ _ (_ & R & _)]. split; [intros ax; rewrite R; now destruct ax|].
  intros i e E ax n. destruct (Fr i e E) as (_ & _ & -> & _). intros [].
Qed.

Lemma built_normals b : built b -> forall i e, edge_at b i e -> e_normal e <> Nzmin /\ e_normal e <> Nzmax.
Proof.
  intros H i e E. destruct (built_sound b H) as [_ Pr [Ow _] _ _]. destruct (Ow i e E) as (k & g & G & I).
  destruct (Pr k g G) as (_ & _ & es & Es & _ & _ & P). destruct (forall2_in _ _ _ Es i I) as (e' & J & E').
  assert (e' = e) as -> by (unfold edge_at in *; congruence). destruct (polygon_edges_in _ _ P) as [_ K].
  specialize (K (e_seg e) (e_normal e)). rewrite in_map_iff in K. specialize (K (ex_intro _ e (conj eq_refl J))).
  unfold edge_normal in K. destruct (detect_rotation (g_points g)), (edge_direction (e_seg e)) as [[]|]; try discriminate; injection K as <-; split; discriminate.
Qed.

Lemma sides_length l : length (sides l) = length l.
Proof.
  assert (K : forall l p, length (chain p l) = length l) by (induction l0 as [|x r IH]; intros p; cbn; [reflexivity|now rewrite IH]).
  destruct l as [|p l]; [reflexivity|]. apply K.
Qed.
