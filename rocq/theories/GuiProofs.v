(** Lemmas behind the properties of the window. *)
From Coq Require Import List Arith Bool Lia.
From Verif Require Import HistModel HistSpec HistTreeProofs HistProofs HistNavProofs HistMoreProofs AppModel GuiModel GuiSpec GuiHistProofs.
Import ListNotations.

Section WithStates.
Context {V : Type}.
Notation world := (world V Step).
Notation op := (op V Step).
Notation ghost := (ghost V).
Notation scene := (scene V).
Notation view := (view V).
Notation window := (window V).
Notation action := (action V).

Lemma cur_not_null cs old (w : world) (g : ghost) : good cs old w g -> w_cur w <> null.
Proof.
  intros G H. pose proof (reachable_inv w g (gd_reach _ _ _ _ G)) as I. pose proof (i_cur _ _ I) as A. rewrite H in A.
  rewrite (wf_not_null _ (i_wf _ _ I)) in A. discriminate.
Qed.

(** * Views *)
Definition vcons (v : view) : Prop :=
  vw_board v = true /\
  (vw_cur v <> null -> exists sc, assoc (vw_cur v) (vw_states v) = Some sc /\ vw_scene v = Some sc).

Lemma assoc_app_none {X} t (l r : list (nat * X)) : assoc t l = None -> assoc t (l ++ r) = assoc t r.
Proof. induction l as [|[k x] l IH]; cbn; [auto|]. destruct (t =? k); [discriminate | auto]. Qed.

Lemma show_cons t (v : view) : vcons v -> t <> null -> assoc t (vw_states v) <> None ->
  vcons (show t v) /\ vw_cur (show t v) = t /\ vw_states (show t v) = vw_states v.
Proof.
  intros [B C] Ht Ha. unfold show. destruct (Nat.eqb_spec (vw_cur v) t) as [E|E].
  - repeat split; auto.
  - destruct (assoc t (vw_states v)) as [sc|] eqn:Es; [|congruence]. cbn. repeat split; [assumption|]. intros _. eauto.
Qed.

(** The two views are handled in turn: [cs] are the scenes of the other one. *)
Lemma make_view_ok cs (v : view) (w : world) (g : ghost) : vcons v -> good (vw_states v ++ cs) [] w g ->
  In (w_cur w) (w_pins w) ->
  exists v' w', make_view v w = Ok (v', w') /\ reading w w' /\ good (vw_states v' ++ cs) [] w' g /\
    vcons v' /\ vw_cur v' = w_cur w.
Proof.
  intros C G P. destruct (draw_cache _ w g G) as (w' & sc & E & R & G' & K).
  pose proof (cur_not_null _ _ w g G) as N.
  assert (P' : In (w_cur w) (w_pins w')) by (destruct R as (objs & -> & _); exact P).
  unfold make_view. rewrite (proj1 C), E. cbn [negb bind fst snd]. rewrite <- (proj1 C).
  destruct (assoc (w_cur w) (vw_states v)) as [s|] eqn:Es.
  - destruct (show_cons (w_cur w) (mkView (vw_board v) (vw_cur v) (vw_states v) (vw_scene v)) C N) as (C' & H1 & H2);
      [cbn; congruence|]. eexists _, w'. split; [reflexivity|]. split; [assumption|]. rewrite H2. auto.
  - destruct (show_cons (w_cur w) (mkView (vw_board v) (vw_cur v) (vw_states v ++ [(w_cur w, sc)]) (vw_scene v))) as (C' & H1 & H2).
    { split; [apply C|]. cbn. intros H. destruct (proj2 C H) as (s & Hs & Hv). exists s. split; [|assumption].
      clear -Hs. induction (vw_states v) as [|[k x] l IH]; cbn in *; [discriminate|]. destruct (_ =? k); auto. }
    { assumption. }
    { cbn. rewrite assoc_app_none by assumption. cbn. now rewrite Nat.eqb_refl. }
    eexists _, w'. split; [reflexivity|]. split; [assumption|]. split; [|auto]. rewrite H2. cbn.
    apply (good_incl ((w_cur w, sc) :: vw_states v ++ cs)).
    + now apply good_add.
    + intros y Hy. rewrite <- app_assoc in Hy. apply in_app_or in Hy as [H|[H|H]]; [right; apply in_or_app; now left | now left |].
      right. apply in_or_app. now right.
Qed.

Lemma go_view_ok cs (v : view) (w : world) (g : ghost) : vcons v -> good (vw_states v ++ cs) [] w g ->
  contains (w_cur w) v = true -> w_cur w <> null ->
  exists v', go_view v w = Ok (v', w) /\ vw_states v' = vw_states v /\ vcons v' /\ vw_cur v' = w_cur w.
Proof.
  intros C G H N. unfold contains in H. unfold go_view. destruct (Nat.eqb_spec (vw_cur v) (w_cur w)) as [E|E]; [eauto 10|].
  destruct (assoc (w_cur w) (vw_states v)) as [s|] eqn:Es; [|discriminate].
  destruct (show_cons (w_cur w) v C N) as (C' & H1 & H2); [congruence|]. eauto 10.
Qed.

Lemma view_state_ok (v : view) : vcons v -> vw_cur v <> null -> exists sc, view_state v = Ok sc.
Proof. intros [_ C] H. destruct (C H) as (sc & E & _). exists sc. unfold view_state. now rewrite E. Qed.

(** * The window *)
Record opened (wn : window) (g : ghost) : Prop := {
  op_good : good (vw_states (wn_structure wn) ++ vw_states (wn_processing wn)) [] (wn_world wn) g;
  op_doc : exists d, wn_doc wn = Some d /\ root_object (wn_world wn) (doc_lines d) /\
             root_object (wn_world wn) (doc_params d) /\ doc_path d = p_input (wn_params wn);
  op_structure : vcons (wn_structure wn);
  op_processing : vcons (wn_processing wn);
  op_open : wn_open wn = true
}.

Definition buttons (wn : window) : Prop :=
  let w := wn_world wn in
  wn_undo wn = can_undo 1 w /\ wn_redo wn = can_redo 1 w /\ wn_prev wn = can_go_before w /\
  wn_next wn = can_run_a_next_step w.

Definition showing (wn : window) (g : ghost) : Prop :=
  opened wn g /\ vw_cur (wn_structure wn) = w_cur (wn_world wn) /\ vw_cur (wn_processing wn) = w_cur (wn_world wn) /\
  buttons wn.

Definition blank (v : view) : Prop := vw_board v = false /\ vw_cur v = null /\ vw_states v = [].

Definition shut (wn : window) (g : ghost) : Prop :=
  wn_open wn = false /\
  (wn_closed wn = false ->
   reachable (wn_world wn) g /\ NoDup (map fst (w_objs (wn_world wn))) /\
   blank (wn_structure wn) /\ blank (wn_processing wn) /\
   wn_undo wn = false /\ wn_redo wn = false /\ wn_prev wn = false /\ wn_next wn = false).

Definition winv (wn : window) (g : ghost) : Prop := showing wn g \/ shut wn g.

Lemma reading_root (w w' : world) (g : ghost) o : reading w w' -> reachable w g -> reachable w' g ->
  root_object w o -> root_object w' o.
Proof.
  intros R G G' H. apply (root_object_born w' g o G'). apply (root_object_born w g o G) in H as [T B].
  split; [now apply (reading_tracked w w' o R) | assumption].
Qed.

Lemma reading_good cs old (w w' : world) (g : ghost) o : reading w w' -> good cs old w g -> good cs old w' g ->
  root_object w o -> root_object w' o.
Proof. intros R G G'. apply (reading_root w w' g o R); [apply G | apply G']. Qed.

Lemma reading_buttons (w w' : world) : reading w w' ->
  can_undo 1 w' = can_undo 1 w /\ can_redo 1 w' = can_redo 1 w /\ can_go_before w' = can_go_before w /\
  can_run_a_next_step w' = can_run_a_next_step w /\ w_cur w' = w_cur w /\ w_pins w' = w_pins w /\ w_root w' = w_root w.
Proof. intros (objs & -> & _). repeat split. Qed.

Lemma root_read cs (w : world) (g : ghost) o : good cs [] w g -> root_object w o ->
  exists w' v, read o w = Ok (w', v) /\ reading w w' /\ good cs [] w' g /\ snapshot g (w_cur w) o = Some v.
Proof.
  intros G (Hr & x & Ex & _). destruct (read_ok cs [] w g o G) as (w' & v & E & R & G' & D).
  - congruence.
  - now left.
  - exists w', v. split; [assumption|]. split; [assumption|]. split; [assumption|].
    destruct D as [[F _]|[_ D]]; [|auto]. exfalso.
    now apply (i_reg_first _ _ (reachable_inv w g (gd_reach _ _ _ _ G)) o Hr).
Qed.

(** Both views have been brought to the current timepoint: the rest of
    make_current_state_view and go_to_current_state. *)
Lemma refresh_ok (wn : window) (g : ghost) (w : world) (s p : view) :
  opened wn g -> w_cur w = w_cur (wn_world wn) -> reading (pin_current_timepoint (wn_world wn)) w \/ reading (wn_world wn) w ->
  good (vw_states s ++ vw_states p) [] w g -> vcons s -> vcons p -> vw_cur s = w_cur w -> vw_cur p = w_cur w ->
  exists wn', update_cell_number (update_navigation_buttons_visibility (set_views (set_world wn w) s p)) = Ok wn' /\
    showing wn' g /\ reading w (wn_world wn') /\ wn_params wn' = wn_params wn /\ wn_files wn' = wn_files wn /\
    wn_doc wn' = wn_doc wn /\ wn_unsaved wn' = wn_unsaved wn /\ wn_closed wn' = wn_closed wn /\ wn_csx wn' = wn_csx wn /\
    wn_docs wn' = wn_docs wn.
Proof.
  intros Op Ec Rd G Cs Cp Es Ep. destruct (op_doc _ _ Op) as (d & Ed & Hl & Hp & Hd).
  assert (Ro : forall o, root_object (wn_world wn) o -> root_object w o).
  { intros o Ho. pose proof (gd_reach _ _ _ _ G) as Rw. pose proof (gd_reach _ _ _ _ (op_good _ _ Op)) as Rw0.
    apply (root_object_born w g o Rw). apply (root_object_born _ g o Rw0) in Ho as [T B]. split; [|assumption].
    destruct Rd as [Rd|Rd]; apply (reading_tracked _ _ o Rd); [|exact T].
    unfold pin_current_timepoint. destruct (mem _ _); exact T. }
  destruct (root_read _ w g (doc_lines d) G (Ro _ Hl)) as (w' & v & E & R & G' & _).
  unfold update_cell_number. cbn [update_navigation_buttons_visibility wn_doc set_buttons set_views set_world wn_world].
  rewrite Ed, E. cbn [bind fst]. eexists. split; [reflexivity|].
  destruct (reading_buttons w w' R) as (B1 & B2 & B3 & B4 & B5 & B6 & B7).
  split; [|split; [exact R | cbn; auto 10]].
  split; [|split; [exact (eq_trans Es (eq_sym B5)) | split; [exact (eq_trans Ep (eq_sym B5)) |
    exact (conj (eq_sym B1) (conj (eq_sym B2) (conj (eq_sym B3) (eq_sym B4))))]]].
  constructor; cbn.
  - assumption.
  - exists d. split; [assumption|]. split; [|split; [|assumption]]; eapply reading_good; eauto.
  - assumption.
  - assumption.
  - apply Op.
Qed.

Lemma pin_good cs old (w : world) (g : ghost) : good cs old w g ->
  good cs old (pin_current_timepoint w) g /\ In (w_cur w) (w_pins (pin_current_timepoint w)).
Proof.
  intros G. split.
  - apply (good_quiet cs old w _ g PinCurrent); auto. exact Logic.I.
  - unfold pin_current_timepoint. destruct (mem (w_cur w) (w_pins w)) eqn:E; cbn.
    + now apply mem_In.
    + apply in_or_app. right. now left.
Qed.

(** What an action leaves unchanged, beside the world and the views. *)
Definition same (wn wn' : window) : Prop :=
  wn_params wn' = wn_params wn /\ wn_files wn' = wn_files wn /\ wn_doc wn' = wn_doc wn /\
  wn_closed wn' = wn_closed wn /\ wn_csx wn' = wn_csx wn /\ wn_docs wn' = wn_docs wn.

Lemma make_current_ok (wn : window) (g : ghost) : opened wn g ->
  exists wn', make_current_state_view wn = Ok wn' /\ showing wn' g /\ same wn wn'.
Proof.
  intros Op. pose proof (op_good _ _ Op) as G. destruct (pin_good _ _ _ _ G) as [G1 P1].
  assert (Ec : w_cur (pin_current_timepoint (wn_world wn)) = w_cur (wn_world wn)).
  { unfold pin_current_timepoint. now destruct (mem _ _). }
  rewrite <- Ec in P1. unfold make_current_state_view.
  destruct (make_view_ok _ (wn_structure wn) _ g (op_structure _ _ Op) G1 P1) as (s & w1 & -> & R1 & G2 & C1 & E1).
  cbn [bind fst snd]. destruct (reading_buttons _ _ R1) as (_ & _ & _ & _ & F1 & F2 & _).
  destruct (make_view_ok (vw_states s) (wn_processing wn) w1 g (op_processing _ _ Op)) as (p & w2 & -> & R2 & G3 & C2 & E2).
  { apply (good_incl _ _ _ _ _ G2). intros y Hy. apply in_or_app. apply in_app_or in Hy. tauto. }
  { rewrite F1, F2. assumption. }
  cbn [bind fst snd]. destruct (reading_buttons _ _ R2) as (_ & _ & _ & _ & F3 & _).
  destruct (refresh_ok wn g w2 s p Op) as (wn' & E & Sh & _ & H); auto.
  - congruence.
  - left. eapply reading_trans; eauto.
  - apply (good_incl _ _ _ _ _ G3). intros y Hy. apply in_or_app. apply in_app_or in Hy. tauto.
  - congruence.
  - congruence.
  - exists wn'. split; [assumption|]. split; [assumption|]. unfold same. intuition.
Qed.

Lemma showing_unsaved (wn : window) (g : ghost) b : showing wn g -> showing (set_unsaved wn b) g.
Proof. intros ([G D S P O] & E1 & E2 & B). split; [|auto]. constructor; assumption. Qed.

Lemma pressing_ok (wn : window) (g : ghost) : showing wn g -> update_show_buttons_pressing wn = Ok wn /\ fit wn = Ok wn.
Proof.
  intros (Op & E1 & E2 & _). pose proof (cur_not_null _ _ _ _ (op_good _ _ Op)) as N.
  destruct (view_state_ok _ (op_structure _ _ Op)) as (s & Hs); [congruence|].
  destruct (view_state_ok _ (op_processing _ _ Op)) as (p & Hp); [congruence|].
  unfold update_show_buttons_pressing, fit. rewrite Hs, Hp. split; reflexivity.
Qed.

Lemma go_or_make_ok (wn : window) (g : ghost) : opened wn g ->
  exists wn', go_to_or_make_current_state wn = Ok wn' /\ showing wn' g /\ same wn wn' /\ wn_unsaved wn' = true.
Proof.
  intros Op. pose proof (op_good _ _ Op) as G. pose proof (cur_not_null _ _ _ _ G) as N. unfold go_to_or_make_current_state.
  destruct (contains (w_cur (wn_world wn)) (wn_structure wn) && contains (w_cur (wn_world wn)) (wn_processing wn)) eqn:E.
  - apply andb_prop in E as [Ks Kp]. unfold go_to_current_state.
    destruct (go_view_ok _ _ _ g (op_structure _ _ Op) G Ks N) as (s & -> & Ts & Cs & Es). cbn [bind fst snd].
    destruct (go_view_ok (vw_states s) (wn_processing wn) (wn_world wn) g (op_processing _ _ Op)) as (p & -> & Tp & Cp & Ep); auto.
    { rewrite Ts. apply (good_incl _ _ _ _ _ G). intros y Hy. apply in_or_app. apply in_app_or in Hy. tauto. }
    cbn [bind fst snd].
    destruct (refresh_ok wn g (wn_world wn) s p Op) as (wn' & -> & Sh & _ & H); auto.
    { right. apply reading_refl. }
    { now rewrite Ts, Tp. }
    cbn [bind]. rewrite (proj1 (pressing_ok wn' g Sh)). cbn [bind]. eexists. split; [reflexivity|].
    split; [now apply showing_unsaved|]. split; [unfold same; cbn; intuition | reflexivity].
  - destruct (make_current_ok wn g Op) as (wn' & -> & Sh & Sm). cbn [bind]. eexists. split; [reflexivity|].
    split; [now apply showing_unsaved|]. split; [exact Sm | reflexivity].
Qed.

Lemma after_run_ok (board : @behaviour V) steps (wn : window) (w : world) (g : ghost) :
  perform (run_ops board steps handled (wn_world wn)) (wn_world wn) = Ok w -> opened (set_world wn w) g ->
  exists wn', after_run (run board steps (wn_world wn)) wn = Ok wn' /\ showing wn' g /\ same wn wn' /\ wn_unsaved wn' = true.
Proof.
  intros E Op. destruct (run_ops_ok _ _ _ _ E) as (tr & Er). unfold after_run. rewrite Er. cbn [bind fst].
  destruct (make_current_ok _ _ Op) as (wn' & -> & Sh & Sm). cbn [bind]. eexists. split; [reflexivity|].
  split; [now apply showing_unsaved|]. split; [exact Sm | reflexivity].
Qed.

(** The world of an open window goes on. *)
Lemma opened_world (wn : window) (g g' : ghost) (w : world) : opened wn g ->
  good (vw_states (wn_structure wn) ++ vw_states (wn_processing wn)) [] w g' ->
  (forall o, root_object (wn_world wn) o -> root_object w o) -> opened (set_world wn w) g'.
Proof.
  intros [G (d & Ed & Hl & Hp & Hd) S P O] G' R. constructor; try assumption. exists d. cbn. auto.
Qed.

Lemma apart_nil cs (g : ghost) : apart cs g [].
Proof. intros t sc u _ []. Qed.

(** * Saving *)
Definition written (wn wn' : window) (g : ghost) : Prop :=
  exists p d l q, wn_doc wn = Some d /\ assoc p (wn_files wn') = Some (Saved (doc_path d) d l q) /\
    snapshot g (w_cur (wn_world wn)) (doc_lines d) = Some l /\ snapshot g (w_cur (wn_world wn)) (doc_params d) = Some q.

(** What is in the files after was there before, or is the document. *)
Definition right_files (wn wn' : window) (g : ghost) : Prop :=
  forall p c, assoc p (wn_files wn') = Some c -> assoc p (wn_files wn) = Some c \/ c = Foreign \/
    exists d l q, c = Saved (doc_path d) d l q /\ wn_doc wn = Some d /\
      snapshot g (w_cur (wn_world wn)) (doc_lines d) = Some l /\ snapshot g (w_cur (wn_world wn)) (doc_params d) = Some q.

Definition filed (wn wn' : window) (g : ghost) (ok : Prop) : Prop :=
  right_files wn wn' g /\
  wn_doc wn' = wn_doc wn /\ w_cur (wn_world wn') = w_cur (wn_world wn) /\ wn_closed wn' = wn_closed wn /\
  ((wn_unsaved wn' = wn_unsaved wn /\ forall p c, assoc p (wn_files wn) = Some c -> assoc p (wn_files wn') = Some c) \/
   written wn wn' g \/ ~ ok).

Lemma filed_refl (wn : window) (g : ghost) ok : filed wn wn g ok.
Proof. split; [intros p c; auto|]. repeat split. left. auto. Qed.

Lemma showing_params (wn : window) (g : ghost) q : showing wn g -> p_input q = p_input (wn_params wn) -> showing (set_params wn q) g.
Proof.
  intros ([G (d & Ed & Hl & Hp & Hd) S P O] & E1 & E2 & B) Hq. split; [|auto]. constructor; try assumption.
  exists d. cbn. rewrite Hq. auto.
Qed.

Lemma showing_files (wn : window) (g : ghost) f : showing wn g -> showing (set_files wn f) g.
Proof. intros ([G D S P O] & E1 & E2 & B). split; [|auto]. constructor; assumption. Qed.

Lemma showing_csx (wn : window) (g : ghost) c : showing wn g -> showing (set_csx wn c) g.
Proof. intros ([G D S P O] & E1 & E2 & B). split; [|auto]. constructor; assumption. Qed.

Lemma showing_closed (wn : window) (g : ghost) : showing wn g -> showing (set_closed wn) g.
Proof. intros ([G D S P O] & E1 & E2 & B). split; [|auto]. constructor; assumption. Qed.

Lemma showing_world (wn : window) (g : ghost) w : showing wn g -> reading (wn_world wn) w ->
  good (vw_states (wn_structure wn) ++ vw_states (wn_processing wn)) [] w g -> showing (set_world wn w) g.
Proof.
  intros (Op & E1 & E2 & B) R G. destruct (reading_buttons _ _ R) as (B1 & B2 & B3 & B4 & B5 & _). split.
  - apply (opened_world wn g g w Op G). intros o. apply (reading_good _ _ _ _ g o R (op_good _ _ Op) G).
  - cbn [set_world wn_structure wn_processing wn_world]. rewrite B5. split; [assumption|]. split; [assumption|].
    destruct B as (K1 & K2 & K3 & K4).
    exact (conj (eq_trans K1 (eq_sym B1)) (conj (eq_trans K2 (eq_sym B2)) (conj (eq_trans K3 (eq_sym B3)) (eq_trans K4 (eq_sym B4))))).
Qed.

Lemma write_ok loads saves (wn : window) (g : ghost) : showing wn g ->
  exists wn' d l q, write_csx loads saves wn = Ok (wn', loads) /\ showing wn' g /\
    wn_doc wn = Some d /\ wn_doc wn' = Some d /\ doc_path d = p_input (wn_params wn) /\
    snapshot g (w_cur (wn_world wn)) (doc_lines d) = Some l /\ snapshot g (w_cur (wn_world wn)) (doc_params d) = Some q /\
    wn_params wn' = wn_params wn /\ wn_unsaved wn' = wn_unsaved wn /\ wn_closed wn' = wn_closed wn /\
    w_cur (wn_world wn') = w_cur (wn_world wn) /\
    wn_files wn' = (if loads && saves then put (p_output (wn_params wn)) (Saved (p_input (wn_params wn)) d l q) (wn_files wn) else wn_files wn).
Proof.
  intros Sh. pose proof Sh as (Op & _). destruct (op_doc _ _ Op) as (d & Ed & Hl & Hp & Hd).
  destruct (root_read _ _ g _ (op_good _ _ Op) Hl) as (w1 & l & E1 & R1 & G1 & S1).
  destruct (root_read _ w1 g (doc_params d) G1) as (w2 & q & E2 & R2 & G2 & S2).
  { eapply reading_good; eauto. apply Op. }
  pose proof (reading_trans _ _ _ R1 R2) as R. destruct (reading_buttons _ _ R) as (_ & _ & _ & _ & B5 & _).
  destruct (reading_buttons _ _ R1) as (_ & _ & _ & _ & C5 & _). rewrite C5 in S2.
  unfold write_csx. rewrite Ed. destruct loads; cbn [negb].
  - rewrite E1. cbn [bind fst snd]. rewrite E2. cbn [bind fst snd]. exists (if saves then set_files (set_world wn w2)
      (put (p_output (wn_params wn)) (Saved (p_input (wn_params wn)) d l q) (wn_files wn)) else set_world wn w2), d, l, q.
    split; [reflexivity|]. assert (Sh' : showing (set_world wn w2) g) by now apply showing_world.
    destruct saves; cbn; repeat (split; [solve [assumption | reflexivity | now apply showing_files]|]); auto.
  - exists wn, d, l, q. cbn. auto 15.
Qed.

Lemma save_csx_ok s (wn : window) (g : ghost) : showing wn g ->
  exists wn', save_csx_file s wn = Ok wn' /\ showing wn' g /\ filed wn wn' g (sv_saves s = true).
Proof.
  intros Sh. unfold save_csx_file. set (wn1 := set_params wn _).
  assert (Sh1 : showing wn1 g) by now apply showing_params.
  destruct (is_about_overwriting _ _ _ && negb _).
  - exists wn1. split; [reflexivity|]. split; [assumption|]. split; [intros p c; auto|]. repeat split. left. auto.
  - destruct (write_ok (sv_loads s) (sv_saves s) wn1 g Sh1) as (wn' & d & l & q & -> & Sh' & D1 & D2 & D3 & S1 & S2 & H1 & H2 & H3 & H4 & H5).
    assert (Rf : right_files wn wn' g).
    { intros p c. rewrite H5. destruct (_ && _); [|now left]. cbn. destruct (p =? _); [|now left]. intros [= <-]. right. right.
      exists d, l, q. rewrite D3. auto. }
    cbn [bind fst snd]. eexists. split; [reflexivity|]. destruct (sv_loads s); cbn in H5.
    + split; [now apply showing_unsaved|]. split; [exact Rf|]. split; [cbn; rewrite D2; symmetry; exact D1|]. split; [exact H4|]. split; [exact H3|]. right.
      destruct (sv_saves s); [left | right; discriminate].
      exists (p_output (wn_params wn)), d, l, q. split; [exact D1|]. split; [|auto]. cbn. rewrite H5. cbn. rewrite Nat.eqb_refl.
      rewrite D3. reflexivity.
    + split; [assumption|]. split; [exact Rf|]. split; [rewrite D2; symmetry; exact D1|]. split; [exact H4|]. split; [exact H3|]. left. split; [exact H2|].
      intros p c. rewrite H5. auto.
Qed.

Lemma filed_params (wn wn' : window) (g : ghost) ok q : filed (set_params wn q) wn' g ok -> filed wn wn' g ok.
Proof. intros H. exact H. Qed.

Lemma file_save_ok s (wn : window) (g : ghost) : showing wn g ->
  exists wn', file_save s wn = Ok wn' /\ showing wn' g /\ filed wn wn' g (sv_saves s = true).
Proof.
  intros Sh. unfold file_save. destruct (p_output (wn_params wn) =? 0).
  - destruct (save_csx_ok s (set_params wn (set_output (wn_params wn) (wn_csx wn))) g) as (wn' & E & Sh' & F).
    { now apply showing_params. }
    exists wn'. auto.
  - destruct (negb (wn_csx wn =? p_output (wn_params wn))).
    + destruct (is_save (sv_different s)).
      * destruct (save_csx_ok s (set_csx wn (p_output (wn_params wn))) g) as (wn' & E & Sh' & F).
        { now apply showing_csx. }
        exists wn'. auto.
      * exists wn. split; [reflexivity|]. split; [assumption | apply filed_refl].
    + now apply save_csx_ok.
Qed.

Lemma file_save_as_ok choice s (wn : window) (g : ghost) : showing wn g ->
  exists wn', file_save_as choice s wn = Ok wn' /\ showing wn' g /\ filed wn wn' g (sv_saves s = true).
Proof.
  intros Sh. destruct choice as [p|]; cbn [file_save_as].
  - destruct (save_csx_ok s (set_params (set_csx wn p) (set_output (wn_params wn) p)) g) as (wn' & E & Sh' & F).
    { apply showing_params; [now apply showing_csx | reflexivity]. }
    exists wn'. auto.
  - exists wn. split; [reflexivity|]. split; [assumption | apply filed_refl].
Qed.

Lemma appcsxcad_ok tmp opens loads saves (wn : window) (g : ghost) : showing wn g ->
  exists wn', appcsxcad tmp opens loads saves wn = Ok wn' /\ showing wn' g /\ filed wn wn' g True /\ wn_unsaved wn' = wn_unsaved wn.
Proof.
  intros Sh. unfold appcsxcad. destruct (negb opens || file_exists wn tmp) eqn:Eo.
  - exists wn. split; [reflexivity|]. split; [assumption|]. split; [apply filed_refl | reflexivity].
  - apply orb_false_elim in Eo as [_ Ef]. set (wn1 := set_files _ _).
    assert (Sh1 : showing wn1 g) by (apply showing_files, showing_params; [assumption | reflexivity]).
    destruct (write_ok loads saves wn1 g Sh1) as (wn' & d & l & q & -> & Sh' & D1 & D2 & D3 & S1 & S2 & H1 & H2 & H3 & H4 & H5).
    cbn [bind fst snd]. eexists. split; [reflexivity|]. split; [apply showing_params; [assumption | now rewrite H1]|].
    split; [|exact H2]. split.
    { intros p c. cbn. rewrite H5. destruct (_ && _); cbn; repeat (destruct (p =? _)); auto.
      all: intros [= <-]; right; auto. right. exists d, l, q. rewrite D3. auto. }
    split; [cbn; rewrite D2; symmetry; exact D1|]. split; [exact H4|]. split; [exact H3|]. left. split; [exact H2|].
    intros p c Hc. cbn. rewrite H5. unfold file_exists in Ef. assert (Np : p <> tmp) by (intros ->; rewrite Hc in Ef; discriminate).
    apply Nat.eqb_neq in Np. destruct (loads && saves); cbn; rewrite Np; assumption.
Qed.

(** * Parsing *)
Lemma reset_good (w : world) (g : ghost) : reachable w g -> NoDup (map fst (w_objs w)) ->
  exists w0, reset [] w = Ok w0 /\ good [] (map fst (w_objs w)) w0 g /\ w_root w0 = w_root w.
Proof.
  intros R N. pose proof (reachable_inv w g R) as I.
  destruct (step_inv w g (Reset []) I Logic.I) as (w0 & E & _). cbn [step] in E. exists w0. split; [assumption|].
  unfold reset in E. pose proof (gc_keys _ _ _ E) as Hk. pose proof (gc_regs _ _ _ E) as Hr. pose proof (gc_root _ _ _ E) as Ht.
  cbn in Hk, Hr, Ht. split; [|assumption]. constructor.
  - change g with (gstep g w (Reset [])). eapply reach_step; eauto; [exact Logic.I|].
    intros o [Ho _]. apply Hr in Ho as [[] _].
  - rewrite Hk. now apply NoDup_filter.
  - intros o Ho. right. right. apply assoc_Some_iff in Ho. rewrite Hk in Ho. now apply filter_In in Ho.
  - intros t sc [].
  - intros t sc [].
Qed.

Lemma reset_init r : r <> null -> reset [] (init_world r : world) = Ok (init_world r).
Proof.
  intros N. destruct (reset_good (init_world r) ghost0) as (w0 & E & _).
  - now apply reach_init.
  - constructor.
  - rewrite E. f_equal. revert E. unfold reset, garbage_collector, erase_from_descendants, gc_remove, mem. cbn.
    unfold alive. cbn. rewrite ?Nat.eqb_refl. cbn. rewrite ?Nat.eqb_refl. cbn. destruct (mem r [r] && (mem r [r] && true)); [now intros [= <-] | discriminate].
Qed.

Lemma expire_dead old : forall (w w' : world) o, perform (expire old) w = Ok w' ->
  In o old \/ assoc o (w_objs w) = None -> assoc o (w_objs w') = None.
Proof.
  induction old as [|x old IH]; intros w w' o; cbn.
  - intros [= <-] [[]|H]. assumption.
  - intros E H. apply (IH _ _ o E). cbn. destruct H as [[<-|H]|H]; [right | now left | right].
    + clear. induction (w_objs w) as [|[k y] l IHl]; cbn; [reflexivity|].
      destruct (Nat.eqb_spec k x); cbn; [assumption|]. destruct (Nat.eqb_spec x k); [congruence | assumption].
    + clear -H. induction (w_objs w) as [|[k y] l IHl]; cbn in *; [reflexivity|].
      destruct (Nat.eqb_spec o k) as [->|Hn]; [discriminate|]. destruct (negb (k =? x)); cbn; [|auto].
      apply Nat.eqb_neq in Hn. rewrite Hn. auto.
Qed.

Lemma good_old cs old old' (w : world) (g : ghost) : good cs old w g ->
  (forall o, assoc o (w_objs w) <> None -> In o old -> In o old') -> good cs old' w g.
Proof.
  intros [G1 G2 G3 G4 G5] H. constructor; auto. intros o Ho. destruct (G3 o Ho) as [?|[?|?]]; auto.
Qed.

Lemma expire_reach os : forall (w : world) (g : ghost), reachable w g -> NoDup (map fst (w_objs w)) ->
  exists w', perform (expire os) w = Ok w' /\ reachable w' g /\ NoDup (map fst (w_objs w')).
Proof.
  induction os as [|o os IH]; intros w g R N; cbn [expire map perform step bind]; [eauto|].
  apply IH.
  - change g with (gstep g w (Expire o)). eapply reach_step; [exact R | exact Logic.I | reflexivity|].
    pose proof (reachable_inv w g R) as I. intros o' [Hr Hx]. cbn in Hr.
    assert (Ha : assoc o' (w_objs w) <> None).
    { apply assoc_Some_iff. apply assoc_Some_iff in Hx. cbn in Hx. apply in_map_iff in Hx as (e & <- & He).
      apply in_map_iff. exists e. split; [reflexivity|]. now apply filter_In in He. }
    destruct (assoc o' (w_objs w)) as [y|] eqn:Ey; [|congruence]. pose proof (i_objs _ _ I o' y Hr Ey) as X.
    exists (o_init y). split; apply X.
  - cbn. clear -N. induction (w_objs w) as [|[k y] l IHl]; cbn; [constructor|]. inversion N; subst.
    destruct (negb (k =? o)); cbn; [|auto]. constructor; [|auto]. intros Hk. apply H1. apply in_map_iff in Hk as (e & <- & He).
    apply in_map_iff. exists e. split; [reflexivity|]. now apply filter_In in He.
Qed.

Lemma parse_ok (parse : parsing) board (wn : window) (w0 : world) (g : ghost) : wn_csx wn <> 0 ->
  reset [] (wn_world wn) = Ok w0 -> good [] (map fst (w_objs (wn_world wn))) w0 g ->
  blank (wn_structure wn) -> blank (wn_processing wn) ->
  obeys w0 g [w_root w0] (parse_ops parse board (map fst (w_objs (wn_world wn))) w0) -> parses_well w0 parse ->
  exists wn' b, parse_and_display parse board wn = Ok (wn', b) /\
    (if b then showing wn' (gperform g w0 (parse_ops parse board (map fst (w_objs (wn_world wn))) w0)) /\ wn_unsaved wn' = true
     else shut wn' (gperform g w0 (parse_ops parse board (map fst (w_objs (wn_world wn))) w0))).
Proof.
  intros Nc Er G (Bs & Cs & Ss) (Bp & Cp & Sp) Ob Pw. apply Nat.eqb_neq in Nc. unfold parse_and_display. rewrite Nc, Er. cbn [bind].
  unfold parse_ops in *.
  assert (Ap : apart (@nil (tp * scene)) g [w_root w0]) by (intros ? ? ? []).
  destruct (good_perform [] _ _ _ w0 g [w_root w0] G Ap Ob) as (w1 & new1 & E1 & G1 & _ & O1 & EG1 & Ro1 & Et1).
  rewrite E1 in *. cbn [bind]. destruct (snd (parse w0)) as [[l p]|] eqn:Es.
  - destruct (Pw w1 l p E1 Es) as [Hl Hp].
    destruct (good_perform [] _ _ _ w1 _ new1 G1 (fun _ _ _ H => match H with end) O1) as (w2 & new2 & E2 & G2 & _ & O2 & EG2 & Ro2 & Et2).
    rewrite E2 in *. cbn [bind].
    apply (good_old [] _ []) in G2.
    2: { intros o Ho Hi. exfalso. apply Ho. apply (expire_dead _ w1 w2 o E2). now left. }
    rewrite <- (app_nil_r (RememberCurrent :: run_ops board handled handled (remember_current_timepoint w2))) in O2.
    destruct (good_perform [] [] _ _ w2 _ new2 G2 (fun _ _ _ H => match H with end) O2) as (w3 & new3 & E3 & G3 & _ & _ & EG3 & Ro3 & Et3).
    rewrite app_nil_r in EG3. cbn [perform step bind] in E3.
    set (wn2 := set_views _ _ _).
    destruct (after_run_ok board handled wn2 w3 (gperform g w0 (fst (parse w0) ++ expire (map fst (w_objs (wn_world wn))) ++
      RememberCurrent :: run_ops board handled handled (remember_current_timepoint w2)))) as (wn3 & E4 & Sh & Sm & U).
    + exact E3.
    + rewrite EG1, EG2. constructor.
      * cbn. rewrite Ss, Sp. exact G3.
      * eexists. split; [reflexivity|]. split; [|split; [|reflexivity]]; cbn; auto.
      * split; [reflexivity|]. cbn. rewrite Cs. intros H. now contradict H.
      * split; [reflexivity|]. cbn. rewrite Cp. intros H. now contradict H.
      * reflexivity.
    + change (run_all_steps board (wn_world wn2)) with (run board handled (wn_world wn2)). rewrite E4. cbn [bind].
      exists wn3, true. auto.
  - destruct (expire_reach (filter (fun o => negb (mem o (map fst (w_objs (wn_world wn))))) (map fst (w_objs w1))) w1 _ (gd_reach _ _ _ _ G1)
      (gd_nodup _ _ _ _ G1)) as (w2 & E2 & R2 & N2).
    rewrite E2. cbn [bind]. eexists _, false. split; [reflexivity|]. split; [reflexivity|]. intros _. rewrite EG1. cbn.
    split; [assumption|]. split; [assumption|]. repeat split; assumption.
Qed.

(** * Actions *)
Definition next_ghost (wn : window) (g : ghost) (a : action) : ghost :=
  gperform g (fst (start wn a)) (action_ops wn a).

(** Actions that need a document although nothing prevents them. *)
Definition needs_document (wn : window) (a : action) : Prop :=
  match a with
  | FitView => True
  | CloseWindow SAVE _ => wn_unsaved wn = true
  | _ => False
  end.

Definition done (wn wn' : window) (g g' : ghost) (a : action) : Prop :=
  wn_open wn' = true ->
  wn_unsaved wn' = true \/
  (wn_open wn = true /\ g' = g /\ wn_doc wn' = wn_doc wn /\ w_cur (wn_world wn') = w_cur (wn_world wn) /\
   ((wn_unsaved wn' = wn_unsaved wn /\ forall p c, assoc p (wn_files wn) = Some c -> assoc p (wn_files wn') = Some c) \/
    written wn wn' g \/ ~ reliable a)).

Lemma done_same (wn : window) (g : ghost) (a : action) : done wn wn g g a.
Proof. intros O. right. auto 10. Qed.

Lemma done_filed (wn wn' : window) (g : ghost) (a : action) (ok : Prop) : wn_open wn = true -> (reliable a -> ok) ->
  filed wn wn' g ok -> done wn wn' g g a.
Proof. intros O R (_ & F1 & F2 & _ & F3) O'. right. repeat split; auto. destruct F3 as [?|[?|N]]; auto. right. right. intros H. apply N, R, H. Qed.

(** One operation or a list of them, on an open window. *)
Lemma opened_perform (wn : window) (g : ghost) xs ys : opened wn g -> obeys (wn_world wn) g [] (xs ++ ys) ->
  exists w' new', perform xs (wn_world wn) = Ok w' /\ opened (set_world wn w') (gperform g (wn_world wn) xs) /\
    obeys w' (gperform g (wn_world wn) xs) new' ys /\
    gperform g (wn_world wn) (xs ++ ys) = gperform (gperform g (wn_world wn) xs) w' ys /\
    apart (vw_states (wn_structure wn) ++ vw_states (wn_processing wn)) (gperform g (wn_world wn) xs) new'.
Proof.
  intros Op O. destruct (good_perform _ [] xs ys _ g [] (op_good _ _ Op) (apart_nil _ g) O) as (w' & new' & E & G & A & O' & EG & R & _).
  exists w', new'. split; [assumption|]. split; [|auto]. now apply (opened_world wn g).
Qed.

Lemma opened_nav (wn : window) (g : ghost) x : opened wn g -> obeys (wn_world wn) g [] [x] ->
  exists w', step (wn_world wn) x = Ok w' /\ opened (set_world wn w') (gperform g (wn_world wn) [x]).
Proof.
  intros Op O. destruct (opened_perform wn g [x] [] Op O) as (w' & new' & E & Op' & _). exists w'. split; [|assumption].
  cbn in E. destruct (step (wn_world wn) x); cbn in E; congruence.
Qed.

Lemma go_before_step from (w w' : world) :
  perform [GoWithoutRemembering (find_first_ancestor_with_annotation_that (fun a => Step_eqb a from) false w)] w = Ok w' ->
  go_before from w = Ok w'.
Proof.
  unfold go_before. cbn [perform step]. destruct (go_without_remembering _ _) as [r| |]; cbn; congruence.
Qed.

Lemma act_ok (wn : window) (g : ghost) (a : action) : winv wn g -> careful wn g a ->
  (wn_open wn = true \/ wn_closed wn = true \/ ~ needs_document wn a) ->
  exists wn', act a wn = Ok wn' /\ winv wn' (next_ghost wn g a) /\ done wn wn' g (next_ghost wn g a) a.
Proof.
  intros W [Ob Pw] Doc. unfold act, next_ghost, action_ops in *.
  destruct (wn_closed wn || negb (enabled wn a)) eqn:Ea.
  { exists wn. cbn. split; [reflexivity|]. split; [assumption | apply done_same]. }
  apply orb_false_elim in Ea as [Ec Ea]. apply negb_false_iff in Ea. destruct W as [Sh|[So Su]].
  - (* with a document *)
    pose proof Sh as (Op & E1 & E2 & B). pose proof (op_open _ _ Op) as Eo.
    destruct a as [choice parse board| | |s|choice s|tmp opens loads saves|from edit board| |board| | |ans s]; cbn [gperform start fst snd] in *.
    + destruct choice as [p|].
      2: { exists wn. split; [reflexivity|]. split; [now left | apply done_same]. }
      destruct Pw as [Np Pw]. apply Nat.eqb_neq in Np as Np'. rewrite Ec, Np' in *. cbn [orb fst snd] in *.
      destruct (reset_good (wn_world wn) g) as (w0 & Er & G0 & Et).
      { apply (op_good _ _ Op). }
      { apply (op_good _ _ Op). }
      unfold reset_history in *. rewrite Er in *. rewrite <- Et in Ob.
      unfold file_open. set (wn1 := set_params _ _).
      destruct (parse_ok parse board wn1 w0 g Np Er G0) as (wn' & b & -> & H).
      { repeat split. }
      { repeat split. }
      { exact Ob. }
      { exact Pw. }
      cbn [bind fst snd]. destruct b.
      * destruct H as [Sh' U]. rewrite (proj2 (pressing_ok wn' _ Sh')). exists wn'. split; [reflexivity|]. split; [now left|].
        intros _. now left.
      * exists wn'. split; [reflexivity|]. split; [now right|]. intros O. destruct H as [H _]. congruence.
    + exists wn. rewrite (proj2 (pressing_ok wn g Sh)). split; [reflexivity|]. split; [now left | apply done_same].
    + exists wn. rewrite (proj1 (pressing_ok wn g Sh)). split; [reflexivity|]. split; [now left | apply done_same].
    + destruct (file_save_ok s wn g Sh) as (wn' & E & Sh' & F). exists wn'. split; [assumption|]. split; [now left|].
      apply (done_filed _ _ _ _ _ Eo) with (2 := F). auto.
    + destruct (file_save_as_ok choice s wn g Sh) as (wn' & E & Sh' & F). exists wn'. split; [assumption|]. split; [now left|].
      apply (done_filed _ _ _ _ _ Eo) with (2 := F). auto.
    + destruct (appcsxcad_ok tmp opens loads saves wn g Sh) as (wn' & E & Sh' & F & _). exists wn'. split; [assumption|].
      split; [now left|]. apply (done_filed _ _ _ _ _ Eo) with (2 := F). auto.
    + unfold edition_from. set (x := GoWithoutRemembering _) in *.
      destruct (opened_perform wn g [x] _ Op Ob) as (w1 & new1 & F1 & Op1 & O1 & EG1 & A1).
      assert (Eg : go_before from (wn_world wn) = Ok w1) by now apply go_before_step.
      rewrite Eg in *. cbn [bind].
      destruct (good_perform _ [] _ _ _ _ new1 (op_good _ _ Op1) A1 O1) as (w2 & new2 & F2 & G2 & A2 & O2 & EG2 & R2 & _).
      cbn [set_world wn_world] in *. rewrite F2 in *. cbn [bind].
      rewrite <- (app_nil_r (run_ops board (that_and_after from) handled w2)) in O2.
      destruct (good_perform _ [] _ _ _ _ new2 G2 A2 O2) as (w3 & new3 & F3 & G3 & _ & _ & _ & R3 & _).
      change (run_from_step board from w2) with (run board (that_and_after from) (wn_world (set_world wn w2))).
      destruct (after_run_ok board (that_and_after from) (set_world wn w2) w3
        (gperform (gperform (gperform g (wn_world wn) [x]) w1 (edit w1)) w2 (run_ops board (that_and_after from) handled w2)))
        as (wn' & -> & Sh' & Sm & U).
      { exact F3. }
      { apply (opened_world (set_world wn w1) (gperform g (wn_world wn) [x])); auto. }
      rewrite EG2 in EG1. rewrite <- EG1 in Sh'. exists wn'. split; [reflexivity|]. split; [left; exact Sh'|]. intros _. now left.
    + destruct (opened_nav wn g _ Op Ob) as (w' & Es & Op'). unfold go_before_previous_step. cbn [step] in Es.
      destruct (go_and_remember _ _) as [r| |]; cbn [bind] in *; try discriminate. injection Es as Es. rewrite Es.
      destruct (go_or_make_ok _ _ Op') as (wn' & -> & Sh' & _ & U). exists wn'. split; [reflexivity|]. split; [now left|].
      intros _. now left.
    + assert (H : exists w', run_next_step board (wn_world wn) = Ok w' /\ opened (set_world wn (fst w')) (gperform g (wn_world wn)
        match annotation_found false (wn_world wn) with
        | Some a => match next a with Some s => run_ops board [s] handled (wn_world wn) | None => [] end
        | None => run_ops board [ADJUST_EDGE_TO_MATERIAL] handled (wn_world wn)
        end)).
      { assert (K : forall steps, obeys (wn_world wn) g [] (run_ops board steps handled (wn_world wn)) ->
          exists r, run board steps (wn_world wn) = Ok r /\
            opened (set_world wn (fst r)) (gperform g (wn_world wn) (run_ops board steps handled (wn_world wn)))).
        { intros steps O. rewrite <- (app_nil_r (run_ops _ _ _ _)) in O.
          destruct (opened_perform wn g _ [] Op O) as (w' & new' & E & Op' & _).
          destruct (run_ops_ok _ _ _ _ E) as (tr & Er). exists (w', tr). auto. }
        unfold run_next_step. destruct (annotation_found false (wn_world wn)) as [an|]; [|now apply K].
        destruct (next an); [now apply K|]. exists (wn_world wn, []). split; [reflexivity|]. cbn. destruct wn; exact Op. }
      destruct H as (r & -> & Op'). cbn [bind].
      destruct (go_or_make_ok _ _ Op') as (wn' & -> & Sh' & _ & U). exists wn'. split; [reflexivity|]. split; [now left|].
      intros _. now left.
    + destruct (opened_nav wn g _ Op Ob) as (w' & Es & Op'). cbn [step] in Es. rewrite Es. cbn [bind].
      destruct (go_or_make_ok _ _ Op') as (wn' & -> & Sh' & _ & U). exists wn'. split; [reflexivity|]. split; [now left|].
      intros _. now left.
    + destruct (opened_nav wn g _ Op Ob) as (w' & Es & Op'). cbn [step] in Es. rewrite Es. cbn [bind].
      destruct (go_or_make_ok _ _ Op') as (wn' & -> & Sh' & _ & U). exists wn'. split; [reflexivity|]. split; [now left|].
      intros _. now left.
    + unfold close_event. destruct (wn_unsaved wn) eqn:Eu.
      2: { exists (set_closed wn). split; [reflexivity|]. split; [left; now apply showing_closed|]. intros _. right. cbn. auto 10. }
      destruct ans.
      * exists wn. split; [reflexivity|]. split; [now left | apply done_same].
      * destruct (file_save_ok s wn g Sh) as (wn' & -> & Sh' & F). cbn [bind]. exists (set_closed wn'). split; [reflexivity|].
        split; [left; now apply showing_closed|].
        exact (done_filed wn wn' g (CloseWindow SAVE s) _ Eo (fun r => r) F).
      * exists (set_closed wn). split; [reflexivity|]. split; [left; now apply showing_closed|]. intros _. left. exact Eu.
  - (* without *)
    destruct (Su Ec) as (R & N & Bs & Bp & U1 & U2 & U3 & U4).
    assert (Done : forall wn', wn_open wn' = false -> done wn wn' g (gperform g (fst (start wn a)) (action_ops wn a)) a).
    { intros wn' H O. congruence. }
    unfold action_ops in Done. rewrite Ec, Ea in Done. cbn [orb negb] in Done.
    destruct a as [choice parse board| | |s|choice s|tmp opens loads saves|from edit board| |board| | |ans s]; cbn [gperform start fst snd enabled] in *;
      try congruence.
    + destruct choice as [p|].
      2: { exists wn. split; [reflexivity|]. split; [right; split; auto | auto]. }
      destruct Pw as [Np Pw]. apply Nat.eqb_neq in Np as Np'. rewrite Ec, Np' in *. cbn [orb fst snd] in *.
      destruct (reset_good (wn_world wn) g R N) as (w0 & Er & G0 & Et).
      unfold reset_history in *. rewrite Er in *. rewrite <- Et in Ob.
      unfold file_open. set (wn1 := set_params _ _).
      destruct (parse_ok parse board wn1 w0 g Np Er G0) as (wn' & b & -> & H).
      { repeat split. }
      { repeat split. }
      { exact Ob. }
      { exact Pw. }
      cbn [bind fst snd]. destruct b.
      * destruct H as [Sh' U]. rewrite (proj2 (pressing_ok wn' _ Sh')). exists wn'. split; [reflexivity|]. split; [now left|].
        intros _. now left.
      * exists wn'. split; [reflexivity|]. split; [now right|]. intros O. destruct H as [H _]. congruence.
    + destruct Doc as [?|[?|[]]]; [congruence | congruence | exact Logic.I].
    + unfold close_event. destruct (wn_unsaved wn) eqn:Eu.
      2: { exists (set_closed wn). split; [reflexivity|]. split; [right; split; [assumption | discriminate] | auto]. }
      destruct ans.
      * exists wn. split; [reflexivity|]. split; [right; split; auto | auto].
      * destruct Doc as [?|[?|[]]]; [congruence | congruence | exact Eu].
      * exists (set_closed wn). split; [reflexivity|]. split; [right; split; [assumption | discriminate] | auto].
Qed.

(** * Sessions *)
Definition kept (wn : window) (g : ghost) : Prop :=
  wn_open wn = true -> wn_unsaved wn = false -> written wn wn g.

Lemma needs_dec (wn : window) a : needs_document wn a \/ ~ needs_document wn a.
Proof. destruct a; cbn; try tauto. destruct a; try tauto. destruct (wn_unsaved wn); [now left | now right]. Qed.

Lemma save_open s (wn wn' : window) : file_save s wn = Ok wn' -> wn_open wn' = wn_open wn.
Proof.
  assert (K : forall wn wn' : window, save_csx_file s wn = Ok wn' -> wn_open wn' = wn_open wn).
  { clear wn wn'. intros wn wn'. unfold save_csx_file, write_csx. destruct (_ && _); [now intros [= <-]|].
    cbn [wn_doc set_params]. destruct (wn_doc wn) as [d|]; cbn; [|discriminate]. destruct (sv_loads s); cbn.
    - destruct (read _ _) as [l| |]; cbn; try discriminate. destruct (read _ _) as [q| |]; cbn; try discriminate.
      intros [= <-]. now destruct (sv_saves s).
    - now intros [= <-]. }
  unfold file_save. destruct (_ =? 0); [intros H; now apply K in H|].
  destruct (negb _); [|intros H; now apply K in H]. destruct (is_save _); [intros H; now apply K in H | now intros [= <-]].
Qed.

Lemma act_inv (wn wn' : window) (g : ghost) (a : action) : winv wn g -> careful wn g a -> act a wn = Ok wn' ->
  winv wn' (next_ghost wn g a) /\ done wn wn' g (next_ghost wn g a) a.
Proof.
  intros W C E.
  assert (D : (wn_open wn = true \/ wn_closed wn = true \/ ~ needs_document wn a) \/
              (wn_open wn = false /\ wn_closed wn = false /\ needs_document wn a)).
  { destruct (wn_open wn), (wn_closed wn), (needs_dec wn a); tauto. }
  destruct D as [D|(O & Cl & N)].
  - destruct (act_ok wn g a W C D) as (wn1 & E1 & H). congruence.
  - destruct W as [(Op & _)|[So Su]]; [rewrite (op_open _ _ Op) in O; discriminate|].
    destruct (Su Cl) as (_ & _ & Bs & Bp & _). unfold act in E. rewrite Cl in E.
    destruct a; cbn in N; try contradiction.
    + cbn in E. unfold fit, view_state in E. destruct Bp as (_ & B1 & B2). rewrite B1, B2 in E. discriminate.
    + destruct a; try contradiction. cbn [enabled orb negb] in E. unfold close_event in E. rewrite N in E.
      destruct (file_save s wn) as [wn1| |] eqn:Es; cbn in E; try discriminate. injection E as <-.
      apply save_open in Es. split.
      * right. split; [cbn; congruence | discriminate].
      * intros H. cbn in H. congruence.
Qed.

Lemma launch_ok r args files (parse : parsing) board (wn : window) : r <> null ->
  obeys (init_world r) ghost0 [r] (parse_ops parse board [] (init_world r)) -> parses_well (init_world r) parse ->
  exists wn, launch r args files parse board = Ok wn /\
    winv wn (if p_input args =? 0 then ghost0 else gperform ghost0 (init_world r) (parse_ops parse board [] (init_world r))) /\
    (wn_open wn = true -> wn_unsaved wn = true).
Proof.
  intros Nr Ob Pw. unfold launch. destruct (Nat.eqb_spec (p_input args) 0) as [E|E].
  - unfold parse_and_display. cbn [new_window wn_csx final_callback p_input]. rewrite E. cbn [Nat.eqb bind fst].
    eexists. split; [reflexivity|]. split; [|discriminate]. right. split; [reflexivity|]. intros _. cbn.
    split; [now apply reach_init|]. split; [constructor|]. repeat split.
  - destruct (parse_ok parse board (new_window r (final_callback args) files) (init_world r) ghost0) as (wn' & b & -> & H); auto.
    + exact (reset_init r Nr).
    + constructor; cbn; try tauto; try (now intros ? ? []); [now apply reach_init | constructor].
    + repeat split.
    + repeat split.
    + cbn [bind fst]. exists wn'. split; [reflexivity|]. cbn [new_window wn_world init_world w_objs map] in H. destruct b.
      * destruct H as [Sh U]. split; [now left | auto].
      * split; [now right|]. destruct H as [H _]. congruence.
Qed.

Lemma session_inv (P : action -> Prop) (wn : window) (g : ghost) : session_where P wn g -> winv wn g.
Proof.
  induction 1 as [r args files parse board wn Nr Ob Pw E | wn g a wn' H IH C Pa E].
  - destruct (launch_ok r args files parse board wn Nr Ob Pw) as (wn' & E' & W & _). congruence.
  - exact (proj1 (act_inv wn wn' g a IH C E)).
Qed.

Lemma session_kept (P : action -> Prop) (wn : window) (g : ghost) : (forall a, P a -> reliable a) -> session_where P wn g -> kept wn g.
Proof.
  intros HP. induction 1 as [r args files parse board wn Nr Ob Pw E | wn g a wn' H IH C Pa E].
  - destruct (launch_ok r args files parse board wn Nr Ob Pw) as (wn' & E' & _ & U). intros O U'.
    assert (wn' = wn) by congruence. subst wn'. rewrite (U O) in U'. discriminate.
  - destruct (act_inv wn wn' g a (session_inv _ _ _ H) C E) as [_ D]. intros O U. destruct (D O) as [?|(O0 & Eg & Ed & Ec & F)]; [congruence|].
    fold (next_ghost wn g a). rewrite Eg. unfold written. rewrite Ed, Ec. destruct F as [[F1 F2]|[F|F]].
    + destruct (IH O0) as (p & d & l & q & H1 & H2 & H3 & H4); [congruence|]. exists p, d, l, q. auto 10.
    + exact F.
    + exfalso. apply F. auto.
Qed.

Lemma kept_holds (wn : window) (g : ghost) : winv wn g -> wn_open wn = true -> written wn wn g ->
  exists p d, wn_doc wn = Some d /\ holds wn p d.
Proof.
  intros [(Op & _)|[So _]] O; [|congruence]. intros (p & d & l & q & H1 & H2 & H3 & H4). exists p, d. split; [assumption|].
  exists l, q. split; [assumption|]. destruct (op_doc _ _ Op) as (d' & Ed & Hl & Hp & _).
  assert (d' = d) by congruence. subst d'. pose proof (reachable_inv _ _ (gd_reach _ _ _ _ (op_good _ _ Op))) as I.
  assert (T : forall o, root_object (wn_world wn) o -> tracked (wn_world wn) o).
  { intros o (Hr & x & Ex & _). split; congruence. }
  destruct (report_snapshot _ g _ I (T _ Hl)) as (v1 & -> & S1). destruct (report_snapshot _ g _ I (T _ Hp)) as (v2 & -> & S2).
  split; congruence.
Qed.

Lemma showing_depicts (wn : window) (g : ghost) : showing wn g ->
  exists sc, vw_scene (wn_structure wn) = Some sc /\ depicts sc (wn_world wn) /\
  exists sc', vw_scene (wn_processing wn) = Some sc' /\ depicts sc' (wn_world wn).
Proof.
  intros (Op & E1 & E2 & _). pose proof (op_good _ _ Op) as G. pose proof (cur_not_null _ _ _ _ G) as N.
  destruct (proj2 (op_structure _ _ Op)) as (s & As & Ss); [congruence|].
  destruct (proj2 (op_processing _ _ Op)) as (p & Ap & Sp); [congruence|].
  rewrite E1 in As. rewrite E2 in Ap.
  assert (In1 : In (w_cur (wn_world wn), s) (vw_states (wn_structure wn) ++ vw_states (wn_processing wn))).
  { apply in_or_app. left. now apply assoc_In. }
  assert (In2 : In (w_cur (wn_world wn), p) (vw_states (wn_structure wn) ++ vw_states (wn_processing wn))).
  { apply in_or_app. right. now apply assoc_In. }
  exists s. split; [assumption|]. split; [exact (cache_depicts _ _ _ g s G (gd_cache _ _ _ _ G _ _ In1))|].
  exists p. split; [assumption|]. exact (cache_depicts _ _ _ g p G (gd_cache _ _ _ _ G _ _ In2)).
Qed.

(** * Closing and overwriting *)
Lemma save_agreed s (wn wn' : window) : sv_loads s = true -> sv_different s = SAVE -> sv_overwrite s = SAVE ->
  file_save s wn = Ok wn' -> wn_unsaved wn' = false.
Proof.
  intros L D O.
  assert (K : forall wn wn' : window, save_csx_file s wn = Ok wn' -> wn_unsaved wn' = false).
  { clear wn wn'. intros wn wn'. unfold save_csx_file. rewrite O. cbn [is_save negb]. rewrite andb_false_r. rewrite L.
    unfold write_csx. cbn [wn_doc set_params]. destruct (wn_doc wn) as [d|]; cbn; [|discriminate].
    destruct (read _ _) as [l| |]; cbn; try discriminate. destruct (read _ _) as [q| |]; cbn; try discriminate.
    intros [= <-]. reflexivity. }
  unfold file_save. rewrite D. cbn [is_save]. destruct (_ =? 0); [apply K|]. destruct (negb _); apply K.
Qed.

Lemma save_csx_overwrites s (wn wn' : window) p c : save_csx_file s wn = Ok wn' -> assoc p (wn_files wn) = Some c ->
  assoc p (wn_files wn') = Some c \/ p_force (wn_params wn) = true \/ sv_overwrite s = SAVE.
Proof.
  unfold save_csx_file. cbn [set_params wn_params set_output_format]. intros E Hc.
  destruct (p_force (wn_params wn)) eqn:F; [auto|]. destruct (sv_overwrite s) eqn:O; auto.
  all: left; revert E; cbn [is_save negb]; rewrite andb_true_r;
    match goal with |- context [is_about_overwriting ?a ?b ?c] => destruct (is_about_overwriting a b c) eqn:A end;
    [now intros [= <-]|]; unfold is_about_overwriting in A; cbn in A; rewrite F in A; cbn in A;
    apply orb_false_elim in A as [A _]; unfold file_exists in A; cbn [set_params wn_files] in A;
    unfold write_csx; cbn [wn_doc set_params];
    (destruct (wn_doc wn) as [d|]; cbn [bind]; [|discriminate]); destruct (sv_loads s); cbn [negb bind fst snd];
    [|now intros [= <-]];
    (destruct (read _ _) as [l| |]; cbn [bind fst snd]; try discriminate);
    (destruct (read _ _) as [q| |]; cbn [bind fst snd]; try discriminate);
    intros [= <-]; (destruct (sv_saves s); [|exact Hc]); cbn;
    (destruct (Nat.eqb_spec p (p_output (wn_params wn))) as [->|_]; [rewrite Hc in A; discriminate | exact Hc]).
Qed.

Lemma file_save_overwrites s (wn wn' : window) p c : file_save s wn = Ok wn' -> assoc p (wn_files wn) = Some c ->
  assoc p (wn_files wn') = Some c \/ p_force (wn_params wn) = true \/ sv_overwrite s = SAVE.
Proof.
  unfold file_save. destruct (_ =? 0); [intros E Hc; exact (save_csx_overwrites _ _ _ p c E Hc)|].
  destruct (negb _); [|intros E Hc; exact (save_csx_overwrites _ _ _ p c E Hc)].
  destruct (is_save _); [intros E Hc; exact (save_csx_overwrites _ _ _ p c E Hc) | intros [= <-]; auto].
Qed.

Lemma parse_files (parse : parsing) board (wn wn' : window) b : parse_and_display parse board wn = Ok (wn', b) ->
  wn_files wn' = wn_files wn.
Proof.
  unfold parse_and_display. destruct (wn_csx wn =? 0); [now intros [= <- <-]|].
  destruct (reset _ _) as [w0| |]; cbn [bind]; try discriminate.
  destruct (perform (fst (parse w0)) w0) as [w1| |]; cbn [bind]; try discriminate.
  destruct (snd (parse w0)) as [[l p]|].
  - destruct (perform _ _) as [w2| |]; cbn [bind]; try discriminate. unfold after_run.
    destruct (run_all_steps _ _) as [r| |]; cbn [bind]; try discriminate. unfold make_current_state_view.
    destruct (make_view _ _) as [s| |]; cbn [bind]; try discriminate.
    destruct (make_view _ _) as [q| |]; cbn [bind]; try discriminate. unfold update_cell_number. cbn.
    destruct (read _ _) as [z| |]; cbn [bind]; try discriminate. now intros [= <- <-].
  - destruct (perform _ _) as [w2| |]; cbn [bind]; try discriminate. now intros [= <- <-].
Qed.

Lemma cell_files (wn wn' : window) : update_cell_number wn = Ok wn' -> wn_files wn' = wn_files wn.
Proof.
  unfold update_cell_number. destruct (wn_doc wn); [|discriminate]. destruct (read _ _); cbn; try discriminate. now intros [= <-].
Qed.

Lemma make_files (wn wn' : window) : make_current_state_view wn = Ok wn' -> wn_files wn' = wn_files wn.
Proof.
  unfold make_current_state_view. destruct (make_view _ _) as [s| |]; cbn [bind]; try discriminate.
  destruct (make_view _ _) as [q| |]; cbn [bind]; try discriminate. intros E. now apply cell_files in E.
Qed.

Lemma go_or_make_files (wn wn' : window) : go_to_or_make_current_state wn = Ok wn' -> wn_files wn' = wn_files wn.
Proof.
  unfold go_to_or_make_current_state. destruct (_ && _).
  - unfold go_to_current_state. destruct (go_view _ _) as [s| |]; cbn [bind]; try discriminate.
    destruct (go_view _ _) as [q| |]; cbn [bind]; try discriminate.
    destruct (update_cell_number _) as [x| |] eqn:E; cbn [bind]; try discriminate. apply cell_files in E.
    unfold update_show_buttons_pressing. destruct (view_state _); cbn [bind]; try discriminate.
    destruct (view_state _); cbn [bind]; try discriminate. now intros [= <-].
  - destruct (make_current_state_view _) as [x| |] eqn:E; cbn [bind]; try discriminate. apply make_files in E. now intros [= <-].
Qed.

Lemma act_overwrites (wn wn' : window) (a : action) p c : act a wn = Ok wn' -> assoc p (wn_files wn) = Some c ->
  assoc p (wn_files wn') = Some c \/ p_force (wn_params wn) = true \/ agreed a.
Proof.
  unfold act. destruct (_ || _); [intros [= <-]; auto|].
  assert (Id : forall wn1 : window, wn_files wn1 = wn_files wn -> assoc p (wn_files wn) = Some c ->
    assoc p (wn_files wn1) = Some c \/ p_force (wn_params wn) = true \/ agreed a) by (intros wn1 ->; auto).
  destruct a as [choice parse board| | |s|choice s|tmp opens loads saves|from edit board| |board| | |ans s]; cbn [agreed] in *.
  - destruct choice as [q|]; cbn [file_open]; [|intros [= <-]; auto].
    destruct (parse_and_display _ _ _) as [[wn1 b]| |] eqn:E; cbn [bind fst snd]; try discriminate. apply parse_files in E.
    destruct b; [|intros [= <-]; now apply Id]. unfold fit. destruct (view_state _); cbn [bind]; try discriminate.
    destruct (view_state _); cbn [bind]; try discriminate. intros [= <-]. now apply Id.
  - unfold fit. destruct (view_state _); cbn [bind]; try discriminate. destruct (view_state _); cbn [bind]; try discriminate.
    intros [= <-]. auto.
  - unfold update_show_buttons_pressing. destruct (view_state _); cbn [bind]; try discriminate.
    destruct (view_state _); cbn [bind]; try discriminate. intros [= <-]. auto.
  - apply file_save_overwrites.
  - destruct choice as [q|]; cbn [file_save_as]; [|intros [= <-]; auto]. intros E Hc.
    exact (save_csx_overwrites _ _ _ p c E Hc).
  - unfold appcsxcad. destruct (negb opens || file_exists wn tmp) eqn:Eo; [intros [= <-]; auto|].
    apply orb_false_elim in Eo as [_ Ef]. intros E Hc. left. unfold file_exists in Ef.
    assert (Np : p <> tmp) by (intros ->; rewrite Hc in Ef; discriminate). apply Nat.eqb_neq in Np.
    revert E. unfold write_csx. cbn [wn_doc set_files set_params]. destruct (wn_doc wn) as [d|]; cbn [bind]; [|discriminate].
    destruct loads; cbn [negb bind fst snd].
    + destruct (read _ _) as [l| |]; cbn [bind fst snd]; try discriminate.
      destruct (read _ _) as [r| |]; cbn [bind fst snd]; try discriminate. intros [= <-].
      destruct saves; cbn; rewrite Np; exact Hc.
    + intros [= <-]. cbn. rewrite Np. exact Hc.
  - unfold edition_from, after_run. destruct (go_before _ _) as [w1| |]; cbn [bind]; try discriminate.
    destruct (perform _ _) as [w2| |]; cbn [bind]; try discriminate. destruct (run_from_step _ _ _) as [r| |]; cbn [bind]; try discriminate.
    destruct (make_current_state_view _) as [x| |] eqn:E; cbn [bind]; try discriminate. apply make_files in E.
    intros [= <-]. now apply Id.
  - destruct (go_before_previous_step _) as [w1| |]; cbn [bind]; try discriminate. intros E. apply go_or_make_files in E. now apply Id.
  - destruct (run_next_step _ _) as [w1| |]; cbn [bind]; try discriminate. intros E. apply go_or_make_files in E. now apply Id.
  - destruct (undo _ _) as [w1| |]; cbn [bind]; try discriminate. intros E. apply go_or_make_files in E. now apply Id.
  - destruct (redo _ _) as [w1| |]; cbn [bind]; try discriminate. intros E. apply go_or_make_files in E. now apply Id.
  - unfold close_event. destruct (wn_unsaved wn); [|intros [= <-]; auto]. destruct ans; try (intros [= <-]; auto; fail).
    destruct (file_save s wn) as [wn1| |] eqn:E; cbn [bind]; try discriminate. intros [= <-] Hc.
    exact (file_save_overwrites s wn wn1 p c E Hc).
Qed.

Lemma act_right (wn wn' : window) (g : ghost) (a : action) : showing wn g -> act a wn = Ok wn' -> right_files wn wn' g.
Proof.
  intros Sh. unfold act. destruct (_ || _); [intros [= <-] p c; auto|].
  assert (Id : forall wn1 : window, wn_files wn1 = wn_files wn -> right_files wn wn1 g) by (intros wn1 E p c; rewrite E; auto).
  destruct a as [choice parse board| | |s|choice s|tmp opens loads saves|from edit board| |board| | |ans s].
  - destruct choice as [q|]; cbn [file_open]; [|intros [= <-]; now apply Id].
    destruct (parse_and_display _ _ _) as [[wn1 b]| |] eqn:E; cbn [bind fst snd]; try discriminate. apply parse_files in E.
    destruct b; [|intros [= <-]; now apply Id]. unfold fit. destruct (view_state _); cbn [bind]; try discriminate.
    destruct (view_state _); cbn [bind]; try discriminate. intros [= <-]. now apply Id.
  - rewrite (proj2 (pressing_ok wn g Sh)). intros [= <-]. now apply Id.
  - rewrite (proj1 (pressing_ok wn g Sh)). intros [= <-]. now apply Id.
  - destruct (file_save_ok s wn g Sh) as (x & -> & _ & F & _). now intros [= <-].
  - destruct (file_save_as_ok choice s wn g Sh) as (x & -> & _ & F & _). now intros [= <-].
  - destruct (appcsxcad_ok tmp opens loads saves wn g Sh) as (x & -> & _ & (F & _) & _). now intros [= <-].
  - unfold edition_from, after_run. destruct (go_before _ _) as [w1| |]; cbn [bind]; try discriminate.
    destruct (perform _ _) as [w2| |]; cbn [bind]; try discriminate. destruct (run_from_step _ _ _) as [r| |]; cbn [bind]; try discriminate.
    destruct (make_current_state_view _) as [x| |] eqn:E; cbn [bind]; try discriminate. apply make_files in E.
    intros [= <-]. now apply Id.
  - destruct (go_before_previous_step _) as [w1| |]; cbn [bind]; try discriminate. intros E. apply go_or_make_files in E. now apply Id.
  - destruct (run_next_step _ _) as [w1| |]; cbn [bind]; try discriminate. intros E. apply go_or_make_files in E. now apply Id.
  - destruct (undo _ _) as [w1| |]; cbn [bind]; try discriminate. intros E. apply go_or_make_files in E. now apply Id.
  - destruct (redo _ _) as [w1| |]; cbn [bind]; try discriminate. intros E. apply go_or_make_files in E. now apply Id.
  - unfold close_event. destruct (wn_unsaved wn); [|intros [= <-]; now apply Id]. destruct ans; try (intros [= <-]; now apply Id).
    destruct (file_save_ok s wn g Sh) as (x & -> & _ & F & _). cbn [bind]. intros [= <-]. exact F.
Qed.

(** Where a document is saved. *)
Lemma write_csx_csx loads saves (wn wn' : window) b : write_csx loads saves wn = Ok (wn', b) ->
  wn_csx wn' = wn_csx wn /\ wn_doc wn' = wn_doc wn /\ wn_params wn' = wn_params wn /\ wn_unsaved wn' = wn_unsaved wn /\
  forall p, p <> p_output (wn_params wn) -> assoc p (wn_files wn') = assoc p (wn_files wn).
Proof.
  unfold write_csx. destruct (wn_doc wn) eqn:Ed; [|discriminate]. destruct loads; cbn [negb].
  - destruct (read _ _) as [l| |]; cbn [bind fst snd]; try discriminate.
    destruct (read _ _) as [q| |]; cbn [bind fst snd]; try discriminate. intros [= <- <-]. destruct saves; cbn; repeat split; auto.
    intros p Hp. apply Nat.eqb_neq in Hp. now rewrite Hp.
  - intros [= <- <-]. repeat split; auto.
Qed.

Lemma holds_written (wn : window) (g : ghost) p d l q : showing wn g -> wn_doc wn = Some d ->
  assoc p (wn_files wn) = Some (Saved (doc_path d) d l q) ->
  snapshot g (w_cur (wn_world wn)) (doc_lines d) = Some l -> snapshot g (w_cur (wn_world wn)) (doc_params d) = Some q ->
  holds wn p d.
Proof.
  intros (Op & _) Ed F Sl Sq. exists l, q. split; [assumption|]. destruct (op_doc _ _ Op) as (d' & Ed' & Hl & Hp & _).
  assert (d' = d) by congruence. subst d'. pose proof (reachable_inv _ _ (gd_reach _ _ _ _ (op_good _ _ Op))) as I.
  assert (T : forall o, root_object (wn_world wn) o -> tracked (wn_world wn) o).
  { intros o (Hr & x & Ex & _). split; congruence. }
  destruct (report_snapshot _ g _ I (T _ Hl)) as (v1 & -> & S1). destruct (report_snapshot _ g _ I (T _ Hp)) as (v2 & -> & S2).
  split; congruence.
Qed.

Lemma save_csx_holds s (wn wn' : window) (g : ghost) : showing wn g -> sv_loads s = true -> sv_saves s = true -> sv_overwrite s = SAVE ->
  save_csx_file s wn = Ok wn' ->
  exists d, wn_doc wn = Some d /\ wn_doc wn' = Some d /\ holds wn' (p_output (wn_params wn)) d /\ wn_unsaved wn' = false /\
    wn_csx wn' = wn_csx wn /\ p_output (wn_params wn') = p_output (wn_params wn) /\ showing wn' g.
Proof.
  intros Sh L Sv O. unfold save_csx_file. rewrite O, L, Sv. cbn [is_save negb]. rewrite andb_false_r. set (wn1 := set_params wn _).
  assert (Sh1 : showing wn1 g) by now apply showing_params.
  destruct (write_ok true true wn1 g Sh1) as (wn2 & d & l & q & E & Sh' & D1 & D2 & D3 & S1 & S2 & H1 & H2 & H3 & H4 & H5).
  rewrite E. cbn [bind fst snd]. intros [= <-]. exists d. split; [exact D1|]. split; [exact D2|].
  apply write_csx_csx in E as (C1 & _). split; [|split; [reflexivity | split; [exact C1 | split; [cbn; rewrite H1; reflexivity | now apply showing_unsaved]]]].
  apply (holds_written _ g _ d l q); cbn.
  - now apply showing_unsaved.
  - assumption.
  - rewrite H5. cbn. rewrite Nat.eqb_refl, D3. reflexivity.
  - rewrite H4. exact S1.
  - rewrite H4. exact S2.
Qed.

Lemma save_csx_closed s (wn wn' : window) : save_csx_file s wn = Ok wn' -> wn_closed wn' = wn_closed wn.
Proof.
  unfold save_csx_file, write_csx. destruct (_ && _); [now intros [= <-]|].
  cbn [wn_doc set_params]. destruct (wn_doc wn) as [d|]; cbn; [|discriminate]. destruct (sv_loads s); cbn.
  - destruct (read _ _) as [l| |]; cbn; try discriminate. destruct (read _ _) as [q| |]; cbn; try discriminate.
    intros [= <-]. now destruct (sv_saves s).
  - now intros [= <-].
Qed.

Lemma parse_doc (parse : parsing) board (wn wn' : window) b : parse_and_display parse board wn = Ok (wn', b) -> wn_csx wn <> 0 ->
  wn_open wn' = b /\ (b = true -> exists d, wn_doc wn' = Some d /\ doc_path d = p_input (wn_params wn) /\ doc_id d = wn_docs wn).
Proof.
  intros E N. revert E. apply Nat.eqb_neq in N. unfold parse_and_display. rewrite N.
  destruct (reset _ _) as [w0| |]; cbn [bind]; try discriminate.
  destruct (perform (fst (parse w0)) w0) as [w1| |]; cbn [bind]; try discriminate.
  destruct (snd (parse w0)) as [[l p]|].
  - destruct (perform _ _) as [w2| |]; cbn [bind]; try discriminate. unfold after_run.
    destruct (run_all_steps _ _) as [r| |]; cbn [bind]; try discriminate. unfold make_current_state_view.
    destruct (make_view _ _) as [s| |]; cbn [bind]; try discriminate.
    destruct (make_view _ _) as [q| |]; cbn [bind]; try discriminate. unfold update_cell_number. cbn.
    destruct (read _ _) as [z| |]; cbn [bind]; try discriminate. intros [= <- <-]. cbn. split; [reflexivity|]. intros _.
    eexists. split; [reflexivity|]. split; reflexivity.
  - destruct (perform _ _) as [w2| |]; cbn [bind]; try discriminate. intros [= <- <-]. split; [reflexivity | discriminate].
Qed.

(** * Undo then redo *)
Definition same_place (w w' : world) : Prop := w_hist w' = w_hist w /\ w_brow w' = w_brow w /\ w_cur w' = w_cur w.

Lemma same_trans w1 w2 w3 : same_place w1 w2 -> same_place w2 w3 -> same_place w1 w3.
Proof. intros (H1 & H2 & H3) (K1 & K2 & K3). repeat split; congruence. Qed.

Lemma read_place o (w w' : world) v : read o w = Ok (w', v) -> same_place w w'.
Proof.
  unfold read. destruct (assoc o (w_objs w)); [|discriminate]. destruct (get_current_state _ _); cbn; try discriminate.
  intros [= <- _]. repeat split.
Qed.

Lemma draw_place os : forall (w w' : world) sc, draw os w = Ok (w', sc) -> same_place w w'.
Proof.
  induction os as [|o os IH]; intros w w' sc; cbn.
  - intros [= <- _]. repeat split.
  - destruct (read o w) as [[w1 v]| |] eqn:E; cbn; try discriminate.
    destruct (draw os w1) as [[w2 sc2]| |] eqn:E2; cbn; try discriminate. intros [= <- _].
    apply read_place in E. apply IH in E2. eapply same_trans; eauto.
Qed.

Lemma show_states t (v : view) : vw_states (show t v) = vw_states v.
Proof. unfold show. destruct (_ =? _); [reflexivity|]. destruct (assoc _ _); reflexivity. Qed.

Definition extends (v v' : view) : Prop :=
  forall t sc, assoc t (vw_states v) = Some sc -> assoc t (vw_states v') = Some sc.

Lemma make_extends (v v' : view) (w w' : world) : make_view v w = Ok (v', w') -> extends v v' /\ same_place w w'.
Proof.
  unfold make_view. destruct (negb _); [intros [= <- <-]; split; [intros ? ?; auto | repeat split]|].
  destruct (draw _ _) as [[w1 sc]| |] eqn:E; cbn [bind fst snd]; try discriminate. intros [= <- <-].
  split; [|now apply draw_place in E]. intros t s Hs. rewrite show_states. cbn. destruct (assoc (w_cur w) (vw_states v)); [assumption|].
  clear -Hs. induction (vw_states v) as [|[k x] l IH]; cbn in *; [discriminate|]. destruct (t =? k); auto.
Qed.

Lemma go_extends (v v' : view) (w w' : world) : go_view v w = Ok (v', w') -> extends v v' /\ same_place w w'.
Proof.
  unfold go_view. destruct (_ =? _); [intros [= <- <-]; split; [intros ? ?; auto | repeat split]|].
  destruct (assoc _ _); [|apply make_extends]. intros [= <- <-]. split; [|repeat split]. intros t sc. now rewrite show_states.
Qed.

Lemma cell_place (wn wn' : window) : update_cell_number wn = Ok wn' ->
  wn_structure wn' = wn_structure wn /\ wn_processing wn' = wn_processing wn /\ same_place (wn_world wn) (wn_world wn').
Proof.
  unfold update_cell_number. destruct (wn_doc wn); [|discriminate]. destruct (read _ _) as [[w v]| |] eqn:E; cbn; try discriminate.
  intros [= <-]. apply read_place in E. auto.
Qed.

Lemma pin_place (w : world) : same_place w (pin_current_timepoint w).
Proof. unfold pin_current_timepoint. destruct (mem _ _); repeat split. Qed.

Lemma go_or_make_extends (wn wn' : window) : go_to_or_make_current_state wn = Ok wn' ->
  extends (wn_structure wn) (wn_structure wn') /\ extends (wn_processing wn) (wn_processing wn') /\
  same_place (wn_world wn) (wn_world wn').
Proof.
  unfold go_to_or_make_current_state. destruct (_ && _).
  - unfold go_to_current_state. destruct (go_view _ _) as [[s w1]| |] eqn:Es; cbn [bind fst snd]; try discriminate.
    destruct (go_view _ _) as [[q w2]| |] eqn:Eq in |- *; cbn [bind fst snd]; try discriminate.
    destruct (update_cell_number _) as [x| |] eqn:E; cbn [bind]; try discriminate.
    unfold update_show_buttons_pressing. destruct (view_state _); cbn [bind]; try discriminate.
    destruct (view_state _); cbn [bind]; try discriminate. intros [= <-]. cbn.
    apply go_extends in Es as [X1 P1]. apply go_extends in Eq as [X2 P2]. apply cell_place in E as (S1 & S2 & P3). cbn in S1, S2, P3.
    rewrite S1, S2. split; [assumption|]. split; [assumption|]. eapply same_trans; [exact P1|]. eapply same_trans; eauto.
  - unfold make_current_state_view. destruct (make_view _ _) as [[s w1]| |] eqn:Es; cbn [bind fst snd]; try discriminate.
    destruct (make_view _ _) as [[q w2]| |] eqn:Eq in |- *; cbn [bind fst snd]; try discriminate.
    destruct (update_cell_number _) as [x| |] eqn:E; cbn [bind]; try discriminate. intros [= <-]. cbn.
    apply make_extends in Es as [X1 P1]. apply make_extends in Eq as [X2 P2]. apply cell_place in E as (S1 & S2 & P3). cbn in S1, S2, P3.
    rewrite S1, S2. split; [assumption|]. split; [assumption|]. eapply same_trans; [apply pin_place|].
    eapply same_trans; [exact P1|]. eapply same_trans; eauto.
Qed.

Lemma same_upos (w w' : world) : same_place w w' -> upos w' = upos w.
Proof. intros (H1 & H2 & H3). unfold upos. now rewrite H1, H2, H3. Qed.

Lemma window_undo_redo (wn wn1 wn2 : window) (g : ghost) : showing wn g -> wn_closed wn = false -> wn_undo wn = true ->
  at_remembered (wn_world wn) -> act UndoStep wn = Ok wn1 -> act RedoStep wn1 = Ok wn2 ->
  w_cur (wn_world wn2) = w_cur (wn_world wn) /\
  vw_scene (wn_structure wn2) = vw_scene (wn_structure wn) /\ vw_scene (wn_processing wn2) = vw_scene (wn_processing wn).
Proof.
  intros Sh Cl U Rm A1 A2. pose proof Sh as (Op & E1 & E2 & (K1 & _)). pose proof (op_good _ _ Op) as G.
  pose proof (reachable_inv _ _ (gd_reach _ _ _ _ G)) as I. rewrite K1 in U.
  destruct (at_remembered_nav _ _ I Rm) as [L En].
  assert (Ub : 0 < upos (wn_world wn)) by (apply can_undo_upos in U; lia).
  assert (C1 : careful wn g UndoStep).
  { split; [|exact Logic.I]. unfold action_ops. rewrite Cl. cbn [orb enabled]. rewrite K1, U. cbn.
    split; [exact Logic.I|]. split; [exact Logic.I|]. rewrite (undo_eq _ g 1 I U). intros w' [= <-].
    assert (I1 : inv (at_index (wn_world wn) (upos (wn_world wn) - 1)) g) by (apply at_inv; auto; lia).
    split; [|split; [|exact Logic.I]].
    - intros o [Hr Hx]. destruct (assoc o _) as [y|] eqn:Ey; [|congruence]. pose proof (i_objs _ _ I1 o y Hr Ey) as X.
      exists (o_init y). split; apply X.
    - intros o (Hr & x & Ex & _). assert (T : tracked (wn_world wn) o) by (split; congruence).
      apply (tracked_nav _ (nth (upos (wn_world wn) - 1) (w_hist (wn_world wn)) null) (w_hist (wn_world wn)) (br (wn_world wn) (upos (wn_world wn) - 1))) in T.
      apply T. }
  assert (Ae := A1). unfold act in Ae. rewrite Cl in Ae. cbn [enabled orb] in Ae. rewrite K1, U in Ae. cbn [negb] in Ae.
  rewrite (undo_eq _ g 1 I U) in Ae. cbn [bind] in Ae. apply go_or_make_extends in Ae as (X1 & X2 & Pl1). cbn in X1, X2, Pl1.
  destruct (act_inv wn wn1 g _ (or_introl Sh) C1 A1) as [W1 _].
  assert (G1 : exists g1, showing wn1 g1).
  { destruct W1 as [W1|[W1 _]]; [eauto|]. exfalso. destruct (act_ok wn g UndoStep (or_introl Sh) C1 (or_introl (op_open _ _ Op))) as (z & Az & _).
    assert (z = wn1) by congruence. subst z. clear -A1 W1 Cl Op Sh U I K1 C1.
    assert (Op' : exists g', opened (set_world wn (at_index (wn_world wn) (upos (wn_world wn) - 1))) g').
    { destruct C1 as [C1 _]. unfold action_ops in C1. rewrite Cl in C1. cbn [orb enabled] in C1. rewrite K1, U in C1. cbn [negb start fst snd] in C1.
      destruct (opened_nav wn g _ Op C1) as (w' & Es & Op'). cbn [step] in Es. rewrite (undo_eq _ g 1 I U) in Es. injection Es as <-. eauto. }
    destruct Op' as (g' & Op'). destruct (go_or_make_ok _ _ Op') as (wn' & E & Sh' & _).
    unfold act in A1. rewrite Cl in A1. cbn [enabled orb] in A1. rewrite K1, U in A1. cbn [negb] in A1.
    rewrite (undo_eq _ g 1 I U) in A1. cbn [bind] in A1. assert (wn' = wn1) by congruence. subst.
    destruct Sh' as (Op1 & _). rewrite (op_open _ _ Op1) in W1. discriminate. }
  destruct G1 as (g1 & Sh1). pose proof Sh1 as (Op1 & F1 & F2 & (_ & K2 & _)).
  pose proof (reachable_inv _ _ (gd_reach _ _ _ _ (op_good _ _ Op1))) as I1.
  assert (Pu : upos (wn_world wn1) = upos (wn_world wn) - 1).
  { rewrite (same_upos _ _ Pl1). apply upos_at. lia. }
  assert (Hh : w_hist (wn_world wn1) = w_hist (wn_world wn)) by (destruct Pl1 as (-> & _); reflexivity).
  assert (Cr : can_redo 1 (wn_world wn1) = true).
  { apply (can_redo_upos _ g1 1 I1). rewrite Pu, Hh. lia. }
  assert (Cl1 : wn_closed wn1 = false).
  { assert (Op' : exists g', opened (set_world wn (at_index (wn_world wn) (upos (wn_world wn) - 1))) g').
    { destruct C1 as [C1 _]. unfold action_ops in C1. rewrite Cl in C1. cbn [orb enabled] in C1. rewrite K1, U in C1. cbn [negb start fst snd] in C1.
      destruct (opened_nav wn g _ Op C1) as (w' & Es & Op'). cbn [step] in Es. rewrite (undo_eq _ g 1 I U) in Es. injection Es as <-. eauto. }
    destruct Op' as (g' & Op'). destruct (go_or_make_ok _ _ Op') as (wn' & E & Sh' & Sm & _).
    unfold act in A1. rewrite Cl in A1. cbn [enabled orb] in A1. rewrite K1, U in A1. cbn [negb] in A1.
    rewrite (undo_eq _ g 1 I U) in A1. cbn [bind] in A1. assert (wn' = wn1) by congruence. subst.
    destruct Sm as (_ & _ & _ & Sm & _). rewrite Sm. exact Cl. }
  unfold act in A2. rewrite Cl1 in A2. cbn [enabled orb] in A2. rewrite K2, Cr in A2. cbn [negb] in A2.
  rewrite (redo_eq _ g1 1 I1 Cr) in A2. cbn [bind] in A2.
  assert (Ae := A2). apply go_or_make_extends in A2 as (Y1 & Y2 & Pl2). cbn in Y1, Y2, Pl2.
  assert (Ec : w_cur (wn_world wn2) = w_cur (wn_world wn)).
  { destruct Pl2 as (_ & _ & ->). cbn. rewrite Hh, Pu. replace (upos (wn_world wn) - 1 + 1) with (upos (wn_world wn)) by lia.
    unfold at_index in En. pose proof (f_equal w_cur En) as E. exact E. }
  split; [assumption|].
  assert (Sh2 : exists g2, showing wn2 g2).
  { assert (Op' : exists g', opened (set_world wn1 (at_index (wn_world wn1) (upos (wn_world wn1) + 1))) g').
    { assert (O1 : obeys (wn_world wn1) g1 [] [Redo 1]).
      { cbn. split; [exact Logic.I|]. split; [exact Logic.I|]. rewrite (redo_eq _ g1 1 I1 Cr). intros w' [= <-].
        assert (I2 : inv (at_index (wn_world wn1) (upos (wn_world wn1) + 1)) g1) by (apply at_inv; auto; rewrite Hh; lia).
        split; [|split; [|exact Logic.I]].
        - intros o [Hr Hx]. destruct (assoc o _) as [y|] eqn:Ey; [|congruence]. pose proof (i_objs _ _ I2 o y Hr Ey) as X.
          exists (o_init y). split; apply X.
        - intros o (Hr & x & Ex & _). assert (T : tracked (wn_world wn1) o) by (split; congruence).
          apply (tracked_nav _ (nth (upos (wn_world wn1) + 1) (w_hist (wn_world wn1)) null) (w_hist (wn_world wn1)) (br (wn_world wn1) (upos (wn_world wn1) + 1))) in T.
          apply T. }
      destruct (opened_nav wn1 g1 _ Op1 O1) as (w' & Es & Op'). cbn [step] in Es. rewrite (redo_eq _ g1 1 I1 Cr) in Es. injection Es as <-. eauto. }
    destruct Op' as (g' & Op'). destruct (go_or_make_ok _ _ Op') as (wn' & E & Sh' & _). assert (wn' = wn2) by congruence. subst. eauto. }
  destruct Sh2 as (g2 & (Op2 & H1 & H2 & _)). pose proof (cur_not_null _ _ _ _ G) as N.
  split.
  - destruct (proj2 (op_structure _ _ Op)) as (s & As & Ss); [congruence|].
    destruct (proj2 (op_structure _ _ Op2)) as (s' & As' & Ss'); [congruence|].
    rewrite H1, Ec, <- E1 in As'. apply X1, Y1 in As. congruence.
  - destruct (proj2 (op_processing _ _ Op)) as (s & As & Ss); [congruence|].
    destruct (proj2 (op_processing _ _ Op2)) as (s' & As' & Ss'); [congruence|].
    rewrite H2, Ec, <- E2 in As'. apply X2, Y2 in As. congruence.
Qed.
End WithStates.
