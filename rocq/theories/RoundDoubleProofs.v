(** Proofs that the lines of a meshed axis are doubles. *)
From Coq Require Import List Arith Bool ZArith QArith Qabs Lia Sorting.Permutation.
From Verif Require Import IntervalModel IntervalSpec ManagerModel ManagerSpec.
From Verif Require Import RoundModel RoundSpec RoundProofs.
Import ListNotations.
Open Scope Q_scope.

Definition fine_policy (p : mlp) : Prop := p_enabled p = true -> is_double (p_coord p).
Definition fine_segment (s : segment) : Prop := is_double (iv_m (sg_iv s)).
Definition fine (ax : axis) : Prop :=
  Forall fine_policy (ax_policies ax) /\ Forall fine_segment (ax_segments ax) /\ Forall is_double (ax_lines ax).

Lemma write_fine {A} (P : A -> Prop) l : forall i x l', write l i x = Done l' -> Forall P l -> P x -> Forall P l'.
Proof.
  induction l as [|y r IH]; intros [|i] x l' E F Px; cbn in E; try discriminate.
  - injection E as <-. inversion F; subst. now constructor.
  - destruct (write r i x) as [r'| |] eqn:W; cbn in E; try discriminate. injection E as <-. inversion F; subst. constructor; eauto.
Qed.
Lemma read_fine {A} (P : A -> Prop) l i x : read l i = Done x -> Forall P l -> P x.
Proof.
  unfold read. intros E F. destruct (nth_error l i) as [y|] eqn:N; [|discriminate]. injection E as <-.
  rewrite Forall_forall in F. apply F. eapply nth_error_In. exact N.
Qed.
Lemma fine_set_d p d : fine_policy p -> fine_policy (set_d p d).
Proof. exact (fun H => H). Qed.
Lemma fine_clamp h p : fine_policy p -> fine_policy (clamp_d h p).
Proof. unfold clamp_d. now destruct (Qltb h (p_d p)). Qed.

Ltac step E :=
  match type of E with
  | bind ?x _ = Done _ => let y := fresh "y" in let F := fresh "F" in destruct x as [y| |] eqn:F; cbn [bind] in E; [|discriminate E|discriminate E]
  end.

Lemma new_segment_fine g ax b a ax' : r_new_segment double g ax b a = Done ax' -> fine ax -> fine ax'.
Proof.
  unfold r_new_segment. intros E (P & S & L). step E. step E. unfold r_make_interval in E. step E. step E. injection E as <-.
  pose proof (read_fine _ _ _ _ F P) as P1. pose proof (read_fine _ _ _ _ F0 P) as P2.
  split; [|split; [|exact L]].
  - cbn. eapply write_fine; [exact F2| |now apply fine_clamp]. eapply write_fine; [exact F1|exact P|now apply fine_clamp].
  - cbn. apply Forall_app. split; [exact S|]. constructor; [|constructor]. apply double_is_double.
Qed.
Lemma detect_loop_fine g l : forall ax ax', r_detect_intervals_loop double g ax l = Done ax' -> fine ax -> fine ax'.
Proof.
  induction l as [|b [|a r] IH]; intros ax ax' E I; cbn in E; try now injection E as <-.
  step E. eapply IH; [exact E|]. eapply new_segment_fine; [exact F|exact I].
Qed.
Lemma zones_fine zs ax : fine ax -> fine (apply_zones zs ax).
Proof.
  intros (P & S & L). split; [exact P|]. split; [|exact L]. cbn. revert S. generalize (ax_segments ax).
  induction zs as [|z zs IH]; intros l S; [exact S|]. cbn. apply IH. apply Forall_map. revert S. apply Forall_impl.
  intros s D. unfold apply_zone. now destruct (in_zone z (iv_m (sg_iv s))).
Qed.

Lemma solve_d_fine n b a iv b' a' iv' : r_auto_solve_d double n b a iv = Some (b', a', iv') ->
  fine_policy b -> fine_policy a -> fine_policy b' /\ fine_policy a' /\ iv_m iv' = iv_m iv.
Proof.
  unfold r_auto_solve_d. intros E Pb Pa.
  repeat match type of E with (match ?x with _ => _ end) = _ => destruct x; [|discriminate] end.
  injection E as <- <- <-. now split; [|split].
Qed.
Lemma solve_smoothness_fine n b a iv iv' : r_auto_solve_smoothness double n b a iv = Some iv' -> iv_m iv' = iv_m iv.
Proof.
  unfold r_auto_solve_smoothness. intros E.
  repeat match type of E with (match ?x with _ => _ end) = _ => destruct x; [|discriminate] end.
  now injection E as <-.
Qed.
Lemma solve_d_at_fine n ax i ax' : r_auto_solve_d_at double n ax i = Done ax' -> fine ax -> fine ax'.
Proof.
  unfold r_auto_solve_d_at. intros E (P & S & L). step E. step E. step E.
  destruct (r_auto_solve_d double n y0 y1 (sg_iv y)) as [[[b' a'] iv']|] eqn:R; [|discriminate E]. cbn [lift bind] in E.
  step E. step E. step E. injection E as <-.
  destruct (solve_d_fine _ _ _ _ _ _ _ R (read_fine _ _ _ _ F0 P) (read_fine _ _ _ _ F1 P)) as (Pb & Pa & M).
  split; [|split; [|exact L]].
  - cbn. eapply write_fine; [exact F3| |exact Pa]. eapply write_fine; [exact F2|exact P|exact Pb].
  - cbn. eapply write_fine; [exact F4|exact S|]. unfold fine_segment. cbn. rewrite M. exact (read_fine _ _ _ _ F S).
Qed.
Lemma solve_smoothness_at_fine n ax i ax' : r_auto_solve_smoothness_at double n ax i = Done ax' -> fine ax -> fine ax'.
Proof.
  unfold r_auto_solve_smoothness_at. intros E (P & S & L). step E. step E. step E.
  destruct (r_auto_solve_smoothness double n y0 y1 (sg_iv y)) as [iv'|] eqn:R; [|discriminate E]. cbn [lift bind] in E.
  step E. injection E as <-. split; [exact P|split; [|exact L]].
  cbn. eapply write_fine; [exact F2|exact S|]. unfold fine_segment. cbn. rewrite (solve_smoothness_fine _ _ _ _ _ R). exact (read_fine _ _ _ _ F S).
Qed.
Lemma mesh_interval_fine b a iv : is_double (iv_m iv) -> Forall is_double (r_mesh_interval double b a iv).
Proof.
  intros M. unfold r_mesh_interval. cbv zeta.
  assert (K : forall f l, Forall is_double (map (fun x : Q => double (f x)) l)) by (intros f l; apply Forall_map, Forall_forall; intros; apply double_is_double).
  rewrite !Forall_app. repeat split.
  - destruct (is_oneline (p_policy b)); repeat constructor. apply double_is_double.
  - apply (K (fun x => double (p_coord b + r_d_init_before double b (p_d b)) + x)).
  - repeat constructor. exact M.
  - apply Forall_rev. apply (K (fun x => double (p_coord a - r_d_init_after double a (p_d a)) - x)).
  - destruct (is_oneline (p_policy a)); repeat constructor. apply double_is_double.
Qed.
Lemma mesh_segment_fine ax i l : r_mesh_segment double ax i = Done l -> fine ax -> Forall is_double l.
Proof.
  unfold r_mesh_segment. intros E (P & S & L). step E. step E. step E. injection E as <-. apply mesh_interval_fine. exact (read_fine _ _ _ _ F S).
Qed.
Lemma first_pass_fine n l : forall ax ax', r_first_pass double n ax l = Done ax' -> fine ax -> fine ax'.
Proof.
  induction l as [|i r IH]; cbn; intros ax ax' E I; [now injection E as <-|]. step E. eapply IH; [exact E|]. eapply solve_d_at_fine; [exact F|exact I].
Qed.
Lemma second_pass_fine n l : forall ax ax' ls, r_second_pass double n ax l = Done (ax', ls) -> fine ax ->
  fine ax' /\ Forall (Forall is_double) ls.
Proof.
  induction l as [|i r IH]; cbn; intros ax ax' ls E I; [injection E as <- <-; now split|]. step E. step E. step E. step E. destruct y2 as [ax2 rest].
  injection E as <- <-. pose proof (solve_smoothness_at_fine _ _ _ _ F0 (solve_d_at_fine _ _ _ _ F I)) as I2.
  destruct (IH _ _ _ F2 I2) as (I3 & L). split; [exact I3|]. constructor; [|exact L]. eapply mesh_segment_fine; [exact F1|exact I2].
Qed.
Lemma policies_fine l : Forall fine_policy l -> Forall is_double (flat_map mesh_policy l).
Proof.
  induction 1 as [|p r P _ IH]; [constructor|]. cbn. apply Forall_app. split; [|exact IH]. unfold mesh_policy.
  destruct (p_enabled p) eqn:E; [|constructor]. destruct (is_oneline (p_policy p)); repeat constructor. now apply P.
Qed.
Lemma mesh_axis_fine n srt ax ax' : sorts srt -> r_mesh_axis double n srt ax = Done ax' -> fine ax -> Forall is_double (ax_lines ax').
Proof.
  unfold r_mesh_axis. intros So E I. cbv zeta in E. step E. step E. destruct y0 as [ax2 ls]. injection E as <-. cbn [set_lines ax_lines].
  pose proof (first_pass_fine _ _ _ _ F I) as I1. destruct (second_pass_fine _ _ _ _ _ F0 I1) as ((P & _ & L) & M).
  eapply Permutation_Forall; [apply (So _ (fun x => x))|]. rewrite !Forall_app. split; [exact L|]. split; [now apply Forall_concat|now apply policies_fine].
Qed.

Lemma run_doubles n g zs srt ax ax1 ax2 : sorts srt -> (forall i p, enabled_at ax i p -> is_double (p_coord p)) ->
  ax_segments ax = [] -> ax_lines ax = [] ->
  r_detect_intervals double g srt ax = Done ax1 -> r_mesh_axis double n srt (apply_zones zs ax1) = Done ax2 ->
  Forall is_double (ax_lines ax2).
Proof.
  intros So P S L E1 E2. apply (mesh_axis_fine _ _ _ _ So E2), zones_fine. apply (detect_loop_fine _ _ _ _ E1).
  split; [|rewrite S, L; split; constructor]. apply Forall_forall. intros p I En. apply In_nth_error in I. destruct I as (i & I).
  apply (P i p). now split.
Qed.
