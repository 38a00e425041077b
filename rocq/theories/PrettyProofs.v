(** Proofs about the report. *)
From Coq Require Import List Arith Bool QArith Qabs ZArith String Ascii Lia.
From Verif Require Import BoardCoverProofs EditSpec EditProofs EditGlobalProofs InfraModel InfraSpec InfraNumberProofs.
From Verif Require Import IntervalModel ManagerModel ManagerSpec ManagerProofs ManagerSafetyProofs GeomModel GeomProofs BoardModel EditModel.
From Verif Require Import SceneModel SceneSpec SceneProofs SceneValidProofs PlantumlModel PlantumlSpec PlantumlProofs PlantumlValidProofs.
From Verif Require Import PrettyModel PrettySpec.
From Verif Require AppModel.
Import AppModel(Step(..), that_and_after).
Import ListNotations.
Local Open Scope nat_scope.
Local Open Scope list_scope.

Lemma steps_app l r s : steps (l ++ r) s = match steps l s with Some s => steps r s | None => None end.
Proof. revert s. induction l as [|x l IH]; intros s; cbn; [reflexivity|]. destruct (step x s); [apply IH|reflexivity]. Qed.
Lemma steps_then l r s s' : steps l s = Some s' -> steps (l ++ r) s = steps r s'.
Proof. intros H. rewrite steps_app, H. reflexivity. Qed.

Lemma done_eq {A} (x y : A) : Done x = Done y -> x = y.
Proof. now intros [= ->]. Qed.

Section Board.
Context (named : nat -> string) (b : board).

Lemma edge_piece_is l i x : edge_piece b l i = Done x -> exists t, x = An_edge l t /\ tells b i t.
Proof.
  unfold edge_piece. intros H. apply bind_done in H. destruct H as (e & E & H). apply read_some in E. destruct (edge_direction (e_seg e)) as [d|] eqn:D; [|discriminate]. injection H as <-.
  eexists. split; [reflexivity|]. exists e. cbn. auto.
Qed.
Lemma edges_are l is : forall xs, collect (edge_piece b l) is = Done xs -> exists ts, xs = map (An_edge l) ts /\ Forall2 (tells b) is ts.
Proof.
  induction is as [|i is IH]; cbn; intros xs H; [injection H as <-; exists []; split; [reflexivity|constructor]|]. apply bind_done in H. destruct H as (x & X & H). apply bind_done in H. destruct H as (r & R & H). injection H as <-.
  destruct (edge_piece_is _ _ _ X) as (t & -> & T). destruct (IH r R) as (ts & -> & Ts). exists (t :: ts). split; [reflexivity|now constructor].
Qed.

Lemma steps_of_polygon ts : forall ss c o, or_by o = None -> or_range o = None ->
  steps (map (An_edge (Of_polygon 2)) ts) (mk_state ss (Some c) (Some o)) = Some (mk_state ss (Some c) (Some (mk_or (or_name o) (or_rotation o) (or_edges o ++ ts) None None))).
Proof.
  induction ts as [|t ts IH]; intros ss c o B R; cbn.
  - rewrite app_nil_r. destruct o. cbn in *. subst. reflexivity.
  - rewrite IH by reflexivity. cbn. rewrite <- app_assoc. reflexivity.
Qed.
Lemma steps_edges ts : forall ss pl es, steps (map (An_edge Edge_) ts) (mk_state ss (Some (mk_cr pl es [] None)) None) = Some (mk_state ss (Some (mk_cr pl (es ++ ts) [] None)) None).
Proof. induction ts as [|t ts IH]; intros ss pl es; cbn; [now rewrite app_nil_r|]. rewrite IH, <- app_assoc. reflexivity. Qed.

Lemma one_range_app l r : one_range (l ++ r) = one_range l && one_range r.
Proof. apply forallb_app. Qed.

Lemma on_last_snoc f pl es os o s : on_last f (mk_cr pl es (os ++ [o]) s) = match f o with Some o => Some (mk_cr pl es (os ++ [o]) s) | None => None end.
Proof. unfold on_last. cbn [cr_overlaps]. rewrite rev_app_distr. cbn [rev app cr_place cr_edges cr_solution]. now rewrite rev_involutive. Qed.
Lemma overlap_read_back o xs : overlap_pieces named b 2 o = Done xs -> exists r, tells_overlap named b o r
  /\ forall ss pl es os, one_range os = true -> steps xs (mk_state ss (Some (mk_cr pl es os None)) None) = Some (mk_state ss (Some (mk_cr pl es (os ++ [r]) None)) None).
Proof.
  unfold overlap_pieces, polygon_pieces. intros H. apply bind_done in H. destruct H as (ps & P & H). apply bind_done in P. destruct P as (g & G & P). apply read_some in G. apply bind_done in P. destruct P as (es & Es & P). injection P as <-.
  apply edges_are in Es. destruct Es as (ts & -> & Ts). apply bind_done in H. destruct H as (ot & O & H). injection H as <-. apply edges_are in O. destruct O as (us & -> & Us).
  set (by_ := match us with u :: _ => Some u | [] => None end). exists (mk_or (named (ov_polygon o)) (detect_rotation (g_points g)) ts by_ (Some (ov_range o))). split.
  - split; [exists g; cbn; auto|]. split; [|reflexivity]. cbn. unfold by_. destruct (ov_edge o) as [j|]; cbn in Us; inversion Us; subst; [assumption|exact I].
  - intros ss pl es os Ro. rewrite <- app_assoc. cbn [app]. cbn [steps step st_conflict st_polygon cr_solution cr_overlaps st_sections]. rewrite Ro.
    erewrite steps_then; [|apply steps_of_polygon; reflexivity]. cbn [app or_name or_rotation or_edges]. cbn [steps step st_conflict st_polygon st_sections cr_place cr_edges cr_overlaps].
    destruct (ov_edge o) as [j|]; cbn in Us; inversion Us as [|? u ? ? Tu Un]; subst; [inversion Un; subst|];
      cbn [map app steps step st_conflict st_polygon st_sections]; rewrite on_last_snoc; cbn [or_by or_range option_map or_name or_rotation or_edges];
      [cbn [st_conflict st_polygon st_sections]; rewrite on_last_snoc; cbn [or_by or_range option_map or_name or_rotation or_edges]|]; reflexivity.
Qed.
Lemma overlaps_read_back l : forall xss, collect (overlap_pieces named b 2) l = Done xss -> exists rs, Forall2 (tells_overlap named b) l rs
  /\ forall ss pl es os, one_range os = true -> steps (List.concat xss) (mk_state ss (Some (mk_cr pl es os None)) None) = Some (mk_state ss (Some (mk_cr pl es (os ++ rs) None)) None).
Proof.
  induction l as [|o l IH]; cbn [collect]; intros xss H.
  - injection H as <-. exists []. split; [constructor|]. intros. cbn. now rewrite app_nil_r.
  - apply bind_done in H. destruct H as (xs & X & H). apply bind_done in H. destruct H as (r & R & H). injection H as <-. destruct (overlap_read_back _ _ X) as (t & T & St). destruct (IH r R) as (rs & Ts & Sts).
    exists (t :: rs). split; [now constructor|]. intros ss pl es os Ro. cbn [List.concat]. rewrite (steps_then _ _ _ _ (St ss pl es os Ro)). rewrite Sts; [now rewrite <- app_assoc|].
    rewrite one_range_app, Ro. cbn. destruct T as (_ & _ & ->). reflexivity.
Qed.

(** A conflict is read as it is told, whatever was read before. *)
Definition read_as {C} (tell : C -> conflict_read -> Prop) (c : C) (xs : list piece) : Prop :=
  exists r, tell c r /\ forall h l ss, steps xs (mk_state ((h, l) :: ss) None None) = Some (mk_state ((h, l ++ [r]) :: ss) None None).

Lemma in_polygon_read p c xs : in_polygon_pieces named b p c = Done xs -> read_as (tells_in_polygon named b) (p, c) xs.
Proof.
  unfold in_polygon_pieces. intros H. apply bind_done in H. destruct H as (ed & E & H). apply edge_piece_is in E. destruct E as (t & -> & T). apply bind_done in H. destruct H as (os & O & H). apply overlaps_read_back in O. destruct O as (rs & Rs & St).
  apply bind_done in H. destruct H as (e & E & H). apply read_some in E. injection H as <-.
  exists (mk_cr (On_plane p) [t] rs (if ei_solved c then Some (To_mesh (to_meshed t)) else None)). split.
  - split; [reflexivity|]. split; [exists t; cbn; auto|exact Rs].
  - intros h l ss. cbn [app steps step st_conflict st_polygon st_sections cr_overlaps cr_solution cr_place cr_edges]. rewrite (steps_then _ _ _ _ (St _ _ _ [] eq_refl)). cbn [app].
    destruct T as (e' & E' & _ & _ & M & _). rewrite E in E'. injection E' as <-. rewrite M. destruct (ei_solved c); reflexivity.
Qed.
Lemma colinear_read a c xs : colinear_pieces b a c = Done xs -> read_as (tells_colinear b) (a, c) xs.
Proof.
  unfold colinear_pieces. intros H. apply bind_done in H. destruct H as (es & E & H). apply edges_are in E. destruct E as (ts & -> & Ts). apply bind_done in H. destruct H as (so & So & H). injection H as <-.
  assert (K : exists s, (match ce_policy c with None => s = None | Some j => exists p, nth_error (ax_policies (on_axis (b_axes b) a)) j = Some p /\ s = Some (By_policy (p_policy p)) end)
    /\ forall ss, steps (so ++ [Conflict_end]) (mk_state ss (Some (mk_cr (On_axis a) ts [] None)) None) = steps [Conflict_end] (mk_state ss (Some (mk_cr (On_axis a) ts [] s)) None)).
  { destruct (ce_policy c) as [j|].
    - apply bind_done in So. destruct So as (p & P & So). apply read_some in P. injection So as <-. exists (Some (By_policy (p_policy p))). split; [exists p; auto|reflexivity].
    - injection So as <-. exists None. split; reflexivity. }
  destruct K as (s & Ks & K). exists (mk_cr (On_axis a) ts [] s). split; [split; [reflexivity|]; split; [exact Ts|]; split; [reflexivity|exact Ks]|].
  intros h l ss. cbn [app steps step st_conflict st_polygon st_sections]. rewrite (steps_then _ _ _ _ (steps_edges ts _ _ _)). cbn [app]. rewrite K. reflexivity.
Qed.

Lemma conflicts_read {C} (tell : C -> conflict_read -> Prop) cs xss : Forall2 (read_as tell) cs xss ->
  exists rs, Forall2 tell cs rs /\ forall h l ss, steps (List.concat xss) (mk_state ((h, l) :: ss) None None) = Some (mk_state ((h, l ++ rs) :: ss) None None).
Proof.
  induction 1 as [|c xs cs xss (r & T & St) _ (rs & Ts & Sts)]; [exists []; split; [constructor|intros; cbn; now rewrite app_nil_r]|].
  exists (r :: rs). split; [now constructor|]. intros h l ss. cbn [List.concat]. rewrite (steps_then _ _ _ _ (St h l ss)), Sts, <- app_assoc. reflexivity.
Qed.
Lemma collect_two {X C} (f : X -> C -> run (list piece)) (get : X -> list C) (tell : X * C -> conflict_read -> Prop) :
  (forall x c xs, f x c = Done xs -> read_as tell (x, c) xs) -> forall l xsss, collect (fun x => collect (f x) (get x)) l = Done xsss ->
  Forall2 (read_as tell) (flat_map (fun x => map (pair x) (get x)) l) (List.concat xsss).
Proof.
  intros F. induction l as [|x l IH]; cbn [collect flat_map]; intros xsss H; [injection H as <-; constructor|]. apply bind_done in H. destruct H as (xss & X1 & H). apply bind_done in H. destruct H as (r & R & H). injection H as <-. cbn [List.concat].
  apply Forall2_app; [|now apply IH]. apply collect_each in X1. induction X1; cbn; constructor; auto.
Qed.

Lemma axis_pieces_none srt : flat_map (axis_pieces srt b) all_axes = [].
Proof.
  assert (N : forall {A} (l : list A), flat_map (fun _ => @nil piece) l = []) by (induction l; auto). assert (A : forall a, axis_pieces srt b a = []) by (intros a; unfold axis_pieces, policy_pieces, interval_pieces; now rewrite !N). cbn. now rewrite !A.
Qed.
Lemma too_close_none : flat_map (fun a => flat_map too_close_pieces (ax_conflicts (on_axis (b_axes b) a))) all_axes = [].
Proof. assert (N : forall {A} (l : list A), flat_map (fun _ => @nil piece) l = []) by (induction l; auto). unfold too_close_pieces. cbn. now rewrite !N. Qed.

Lemma pretty_read srt out : pretty named srt b = Done out -> exists s1 s2,
  report out = Some [(EDGE_IN_POLYGONS, s1); (COLINEAR_EDGES, s2); (TOO_CLOSE, [])]
  /\ Forall2 (tells_in_polygon named b) (in_polygons_of b) s1 /\ Forall2 (tells_colinear b) (colinears_of b) s2.
Proof.
  unfold pretty. intros H. apply bind_done in H. destruct H as (x1 & X1 & H). apply bind_done in H. destruct H as (x2 & X2 & H). apply done_eq in H. subst out.
  apply (collect_two (in_polygon_pieces named b) _ _ in_polygon_read), conflicts_read in X1. apply (collect_two (colinear_pieces b) _ _ colinear_read), conflicts_read in X2.
  destruct X1 as (s1 & T1 & R1), X2 as (s2 & T2 & R2). exists s1, s2. split; [|split; assumption].
  rewrite axis_pieces_none, too_close_none. unfold report. cbn [app steps step st_conflict st_polygon st_sections]. rewrite (steps_then _ _ _ _ (R1 _ _ _)). cbn [app steps step st_conflict st_polygon st_sections].
  rewrite (steps_then _ _ _ _ (R2 _ _ _)). reflexivity.
Qed.

Context (n count : nat) (es : list (list nat)) (X : valid False n count es b) (Sh : shared_out n es) (W : solved_well b).
Lemma edge_ends l i : i < n -> exists x, edge_piece b l i = Done x.
Proof.
  intros L. unfold edge_piece. destruct (read_lt (b_edges b) i) as (e & ->); [now rewrite (va_len _ _ _ _ _ X)|]. cbn [bind]. destruct (edge_direction (e_seg e)) eqn:D; [eauto|now destruct (direction_defined (e_seg e))].
Qed.
Lemma pretty_ends srt : exists out, pretty named srt b = Done out.
Proof.
  unfold pretty. destruct (collect_all (fun p => collect (in_polygon_pieces named b p) (on_plane (b_eip b) p)) all_planes) as (x1 & ->).
  { intros p _. apply collect_all. intros c C. destruct (va_eip _ _ _ _ _ X p c C) as [L Os]. unfold in_polygon_pieces. destruct (edge_ends Edge_ _ L) as (x & ->). cbn [bind].
    destruct (collect_all (overlap_pieces named b 2) (ei_overlaps c)) as (y & ->).
    { intros o O. destruct (Os o O) as [Lp Le]. unfold overlap_pieces, polygon_pieces. destruct (read_lt (b_polygons b) (ov_polygon o)) as (g & G); [rewrite <- (va_polys _ _ _ _ _ X), map_length in Lp; exact Lp|]. rewrite G. cbn [bind]. apply read_some in G.
      destruct (collect_all (edge_piece b (Of_polygon 2)) (g_edges g)) as (z & ->); [|cbn [bind]].
      { intros j J. apply edge_ends. apply (proj2 Sh (g_edges g)); [|exact J]. rewrite <- (va_polys _ _ _ _ _ X). apply in_map. now apply nth_error_In in G. }
      destruct (collect_all (edge_piece b (By_edge 2)) (maybe (ov_edge o))) as (u & ->); [|cbn; eauto]. intros j J. apply edge_ends, Le. destruct (ov_edge o); cbn in J; [destruct J as [->|[]]; reflexivity|contradiction]. }
    cbn [bind]. destruct (read_lt (b_edges b) (ei_edge c)) as (e & ->); [now rewrite (va_len _ _ _ _ _ X)|]. cbn. eauto. }
  cbn [bind]. destruct (collect_all (fun a => collect (colinear_pieces b a) (on_axis (b_ce b) a)) all_axes) as (x2 & ->); [|cbn; eauto].
  intros a _. apply collect_all. intros c C. unfold colinear_pieces. destruct (collect_all (edge_piece b Edge_) (ce_edges c)) as (y & ->); [intros j J; apply edge_ends, (va_ce _ _ _ _ _ X a c C j J)|]. cbn [bind].
  destruct (ce_policy c) as [j|] eqn:E; [|cbn; eauto]. destruct (read_lt _ _ (W a c j C E)) as (p & ->). cbn. eauto.
Qed.
End Board.

(** ** All edges in polygons are solved by the steps *)

Definition all_solved (b : board) (p : Plane) : Prop := forall c, In c (on_plane (b_eip b) p) -> ei_solved c = true.

Lemma solve_one srt p b n b' : solve_in_polygon srt p b n = Done b' ->
  List.length (on_plane (b_eip b') p) = List.length (on_plane (b_eip b) p) /\ (forall q, q <> p -> on_plane (b_eip b') q = on_plane (b_eip b) q)
  /\ forall m c, nth_error (on_plane (b_eip b') p) m = Some c -> ei_solved c = true \/ (m <> n /\ nth_error (on_plane (b_eip b) p) m = Some c).
Proof.
  unfold solve_in_polygon. intros H. apply bind_done in H. destruct H as (c & C & H). apply bind_done in H. destruct H as (e & E & H). cbn zeta in H. destruct (sort_overlaps _ _ _) as [|o r]; [discriminate|].
  apply bind_done in H. destruct H as (m & M & H). apply bind_done in H. destruct H as (all & A & H). apply write_nth in A. destruct A as [La A]. apply update_edge_eip in H. rewrite H. cbn [b_eip set_eip].
  rewrite !BoardCoverProofs.on_set_plane. split; [exact La|]. split; [intros q Q; now rewrite on_set_plane_other|]. intros k d. rewrite A. destruct (Nat.eqb_spec k n); [intros [= <-]; now left|right; auto].
Qed.
Lemma solve_plane srt p b b' : auto_solve_all_edge_in_polygon srt b p = Done b' -> all_solved b' p /\ forall q, q <> p -> on_plane (b_eip b') q = on_plane (b_eip b) q.
Proof.
  unfold auto_solve_all_edge_in_polygon. intros H.
  pose proof (for_each_done (solve_in_polygon srt p) (fun done b' => List.length (on_plane (b_eip b') p) = List.length (on_plane (b_eip b) p) /\ (forall q, q <> p -> on_plane (b_eip b') q = on_plane (b_eip b) q)
    /\ forall m c, nth_error (on_plane (b_eip b') p) m = Some c -> In m done -> ei_solved c = true) (seq 0 (List.length (on_plane (b_eip b) p))) b b') as K. destruct K as (L & O & K); [split; [reflexivity|]; split; [reflexivity|intros ? ? ? []]| |exact H|].
  - intros done n rest b1 b2 _ (L & O & K) S1. destruct (solve_one _ _ _ _ _ S1) as (L1 & O1 & K1). split; [congruence|]. split; [intros q Q; rewrite O1, O; auto|].
    intros m c N I. destruct (K1 m c N) as [?|[M N1]]; [assumption|]. apply in_app_or in I. destruct I as [I|[I|[]]]; [exact (K m c N1 I)|congruence].
  - split; [|exact O]. intros c I. apply In_nth_error in I. destruct I as (m & N). apply (K m c N). apply in_seq. split; [lia|]. rewrite <- L. cbn. apply nth_error_Some. congruence.
Qed.
Lemma solve_planes tl x b b' : do_step tl x SOLVE_ALL_EIP b = Done b' -> forall p, all_solved b' p.
Proof.
  cbn [do_step]. intros H.
  pose proof (for_each_done (auto_solve_all_edge_in_polygon (tl_sort_by tl)) (fun done b' => forall p, In p done -> all_solved b' p) all_planes b b') as K.
  assert (A : forall p, In p all_planes -> all_solved b' p); [|intros p; apply A; destruct p; cbn; auto]. apply K; [intros ? []| |exact H]. intros done p rest b1 b2 El D S1 q I. destruct (solve_plane _ _ _ _ S1) as [S O].
  apply in_app_or in I. destruct I as [I|[<-|[]]]; [|exact S]. destruct (plane_eqb q p) eqn:Q; [|unfold all_solved; rewrite O; [now apply D|intros ->; destruct p; discriminate]].
  replace q with p; [exact S|]. destruct p, q; try discriminate; reflexivity.
Qed.
Lemma run_list_app tl l r ss : run_list tl (l ++ r) ss = let! s := run_list tl l ss in run_list tl r s.
Proof. revert ss. induction l as [|s l IH]; intros ss; cbn [app run_list bind]; [reflexivity|]. destruct (run_step tl s ss); cbn [bind]; [apply IH|reflexivity..]. Qed.
Lemma run_step_board tl s ss ss' : run_step tl s ss = Done ss' -> exists x b, do_step tl x s (ss_board ss) = Done b /\ ss_board ss' = b.
Proof.
  unfold run_step. cbn zeta. intros H. apply bind_done in H. destruct H as (b & B & H). exists (ss_settings (annotate s ss)), b. split; [exact B|]. destruct (creates _ _ _ _); injection H as <-; reflexivity.
Qed.
Lemma run_keeps_eip tl l : (forall s, In s l -> EditProofs.written s FEip = false) -> forall ss ss', run_list tl l ss = Done ss' -> b_eip (ss_board ss') = b_eip (ss_board ss).
Proof.
  induction l as [|s l IH]; intros N ss ss' H; cbn [run_list] in H; [now injection H as <-|]. apply bind_done in H. destruct H as (s1 & H1 & H). rewrite (IH (fun t I => N t (or_intror I)) _ _ H).
  apply run_step_board in H1. destruct H1 as (x & b & D & ->). exact (proj2 (do_step_only _ _ _ _ _ D) FEip (N s (or_introl eq_refl))).
Qed.
Lemma steps_solve tl b x ss : reached tl b x [Run_steps] ss -> forall p, all_solved (ss_board ss) p.
Proof.
  intros (_ & _ & _ & H) p. cbn [perform_all perform] in H. apply bind_done in H. destruct H as (s1 & H & E). injection E as <-. unfold run_all_steps in H.
  change (that_and_after ADJUST_EDGE_TO_MATERIAL) with
    ([ADJUST_EDGE_TO_MATERIAL; DETECT_DIAG_ANGLES; DETECT_DIAG_ZONES; SOLVE_DIAG_ZONES_ANGLES; DETECT_CONFLICT_EIP; DETECT_CONFLICT_CE; ADD_FIXED_MLP] ++ SOLVE_ALL_EIP ::
     [SOLVE_ALL_CE; DETECT_INDIVIDUAL_EDGES; DETECT_AND_SOLVE_TCMLP; DETECT_INTERVALS; DETECT_INTERVALS_PER_DIAG_ZONES; SOLVE_DIAG_ZONES_INTERVALS; MESH]) in H.
  rewrite run_list_app in H. apply bind_done in H. destruct H as (s2 & _ & H). cbn [run_list] in H. apply bind_done in H. destruct H as (s3 & H3 & H).
  pose proof (run_keeps_eip tl [SOLVE_ALL_CE; DETECT_INDIVIDUAL_EDGES; DETECT_AND_SOLVE_TCMLP; DETECT_INTERVALS; DETECT_INTERVALS_PER_DIAG_ZONES; SOLVE_DIAG_ZONES_INTERVALS; MESH]) as K.
  unfold all_solved. rewrite (K ltac:(intros s I; repeat (destruct I as [<-|I]; [reflexivity|]); destruct I) s3 s1 H). apply run_step_board in H3. destruct H3 as (y & b3 & D & ->). exact (solve_planes _ _ _ _ D p).
Qed.

(** ** The text of an edge *)

Section Texts.
Local Open Scope string_scope.
Lemma append_assoc s t u : (s ++ t) ++ u = s ++ (t ++ u).
Proof. induction s; cbn; congruence. Qed.
Lemma after a r r' : a ++ r = a ++ r' -> r = r'.
Proof. induction a; cbn; [auto|]. intros E. injection E. auto. Qed.
Fixpoint lacks (x : ascii) (s : string) : bool := match s with EmptyString => true | String c r => negb (Ascii.eqb c x) && lacks x r end.
Lemma at_first x a : forall a' r r', lacks x a = true -> lacks x a' = true -> a ++ String x r = a' ++ String x r' -> a = a' /\ r = r'.
Proof.
  induction a as [|c a IH]; intros [|c' a'] r r' L L' E; cbn in *.
  - injection E as E. auto.
  - injection E as E1 _. subst c'. rewrite Ascii.eqb_refl in L'. discriminate.
  - injection E as E1 _. subst c. rewrite Ascii.eqb_refl in L. discriminate.
  - injection E as E1 E. subst c'. apply andb_true_iff in L, L'. destruct (IH a' r r') as [-> ->]; tauto.
Qed.
Lemma free_lacks s : free s = true -> lacks "," s = true.
Proof. induction s as [|c s IH]; cbn; [auto|]. intros H. apply andb_true_iff in H. destruct H as [-> H]. now apply IH. Qed.
Lemma digit_no_space d : (0 <= d < 10)%Z -> Ascii.eqb (digit_char d) " " = false.
Proof. intros H. destruct (Ascii.eqb_spec (digit_char d) " "); [|reflexivity]. pose proof (digit_of_char d H) as D. rewrite e in D. discriminate D. Qed.
Lemma digits_no_space fuel : forall n tail, lacks " " tail = true -> lacks " " (print_digits fuel n tail) = true.
Proof.
  induction fuel as [|fuel IH]; intros n tail F; cbn [print_digits]; assert (D : (0 <= n mod 10 < 10)%Z) by (apply Z.mod_pos_bound; lia).
  - cbn [lacks]. now rewrite digit_no_space, F.
  - destruct (n / 10 =? 0)%Z; [|apply IH]; cbn [lacks]; now rewrite digit_no_space, F.
Qed.
Lemma padded_no_space k : forall n tail, lacks " " tail = true -> lacks " " (print_padded k n tail) = true.
Proof.
  induction k as [|k IH]; intros n tail F; cbn [print_padded]; [assumption|]. assert (D : (0 <= n mod 10 < 10)%Z) by (apply Z.mod_pos_bound; lia). apply IH. cbn [lacks]. now rewrite digit_no_space, F.
Qed.
Lemma number_no_space x : lacks " " (to_string x) = true.
Proof.
  unfold to_string. cbn zeta. unfold print_whole. destruct (Qltb x 0); [cbn [lacks]; apply andb_true_iff; split; [reflexivity|]|]; apply digits_no_space; cbn [lacks]; now rewrite padded_no_space.
Qed.
Definition point_same (p q : point) : Prop := to_string (px p) = to_string (px q) /\ to_string (py p) = to_string (py q).
Lemma point_text_head p q r r' : point_text p ++ r = point_text q ++ r' -> point_same p q /\ r = r'.
Proof.
  unfold point_text. rewrite !append_assoc. cbn [append]. intros E. injection E as E. rewrite ?append_assoc in E. cbn [append] in E. apply at_first in E; [|apply free_lacks, to_string_free..]. destruct E as [E1 E]. injection E as E.
  rewrite ?append_assoc in E. cbn [append] in E. apply at_first in E; [|apply number_no_space..]. destruct E as [E2 E]. injection E as E. split; [split; assumption|exact E].
Qed.
Lemma edge_text_same t u : edge_text t = edge_text u ->
  point_same (s0 (to_seg t)) (s0 (to_seg u)) /\ point_same (s1 (to_seg t)) (s1 (to_seg u)) /\ seg_axis (to_seg t) = seg_axis (to_seg u)
  /\ to_direction t = to_direction u /\ to_normal t = to_normal u /\ to_meshed t = to_meshed u.
Proof.
  unfold edge_text. intros E. apply point_text_head in E. destruct E as [P E]. apply after in E. apply point_text_head in E. destruct E as [P' E]. apply after in E.
  split; [exact P|]. split; [exact P'|]. apply at_first in E; [|clear; now destruct (seg_axis _)..]. destruct E as [E1 E]. apply at_first in E; [|clear; now destruct (to_direction _)..]. destruct E as [E2 E].
  assert (N : forall m b, normal_string m ++ (if b : bool then " O" else " X") ++ end_line = normal_string m ++ String " " ((if b then "O" else "X") ++ end_line)) by (intros m []; reflexivity). rewrite !N in E.
  apply at_first in E; [|clear; now destruct (to_normal _)..]. destruct E as [E3 E]. split; [destruct (seg_axis (to_seg t)), (seg_axis (to_seg u)); try reflexivity; discriminate|].
  split; [destruct (to_direction t), (to_direction u); try reflexivity; discriminate|]. split; [destruct (to_normal t), (to_normal u); try reflexivity; discriminate|]. destruct (to_meshed t), (to_meshed u); try reflexivity; discriminate.
Qed.
Lemma six_same x y : six_decimals x -> six_decimals y -> to_string x = to_string y -> (x == y)%Q.
Proof.
  intros X Y E. destruct (from_chars_to_string x) as (v & V & Wv). destruct (from_chars_to_string y) as (w & Ww & Www). rewrite E, Ww in V. injection V as <-. rewrite <- (written_id x X), <- (written_id y Y), <- Wv, <- Www. reflexivity.
Qed.
End Texts.
