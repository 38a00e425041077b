(** Property C84: the dialog of a mesh line policy. *)
From Coq Require Import List Bool QArith.
From Verif Require Import IntervalModel ManagerModel ManagerSpec DelegateModel DelegateSpec.
From Verif Require GeomModel BoardModel EditModel SceneSpec PropertiesEdit PropertiesScene.
Import ListNotations.

(** ** Lemmas *)

Lemma coherent_ok : forall p n, inconsistent p n = false <-> coherent p n.
Proof. unfold coherent. intros [] []; cbn; intuition congruence. Qed.

(** What holds as long as the user acts on what is up to date. *)
Record sane (p0 : Policy) (n0 : MNormal) (t : table) : Prop := {
  sa_new : coherent (policy_in t New) (normal_in t New);
  sa_free : c_editable (in_new (t_policy t)) = true;
  sa_held : c_editable (in_new (t_normal t)) = false -> normal_in t New = NNONE;
  sa_old_policy : policy_in t Old = p0 /\ c_editable (in_old (t_policy t)) = false;
  sa_old_normal : normal_in t Old = n0 /\ c_editable (in_old (t_normal t)) = false
}.
Lemma sane_open : forall p n b d, coherent p n -> sane p n (open_dialog p n b d).
Proof. intros p n b d C. constructor; cbn; try tauto. discriminate. Qed.
Lemma allowed_new : forall t n, t_at_policy t = Some New -> allowed t n = true <-> coherent (policy_in t New) n.
Proof. intros t n A. unfold allowed, policy_in. rewrite A. cbn. unfold coherent. destruct (c_value (in_new (t_policy t))), n; intuition congruence. Qed.
Lemma sane_happen : forall p0 n0 t e, sane p0 n0 t -> (by_user e -> up_to_date t) -> sane p0 n0 (happen e t).
Proof.
  intros p0 n0 t e H U. destruct e as [c|c|c x|c x|b|d].
  - destruct H as [H1 H2 H3 H4 H5]. unfold policy_in, normal_in in *. destruct c; constructor; unfold policy_in, normal_in; cbn in *; assumption.
  - destruct H as [H1 H2 H3 H4 H5]. unfold policy_in, normal_in in *. destruct c; constructor; unfold policy_in, normal_in; cbn in *; assumption.
  - destruct (U I) as (A1 & A2 & A3 & A4). destruct H as [H1 H2 H3 H4 H5]. cbn. destruct c; cbn; [rewrite (proj2 H4); now constructor|]. rewrite H2.
    set (p := match x with Some p => p | None => _ end). clearbody p. unfold commit_policy, enforce. cbn. rewrite A2. cbn. unfold policy_in, normal_in in *. cbn in *.
    destruct p; [| |destruct (c_value (in_new (t_normal t))) eqn:N]; constructor; unfold policy_in, normal_in, coherent in *; cbn in *; rewrite ?N; intuition congruence.
  - destruct (U I) as (A1 & A2 & A3 & A4). destruct c; cbn [happen in_column]; [rewrite (proj2 (sa_old_normal _ _ _ H)); exact H|]. destruct (c_editable (in_new (t_normal t))) eqn:E; [|exact H].
    assert (O : opened_on (in_new (t_normal t)) = normal_in t New) by (unfold opened_on; now rewrite A4).
    set (n := match x with Some p => _ | None => _ end). assert (C : coherent (policy_in t New) n).
    { unfold n. destruct x as [y|]; [|rewrite O; apply (sa_new _ _ _ H)]. destruct (allowed t y) eqn:L; [now apply allowed_new|rewrite O; apply (sa_new _ _ _ H)]. }
    clearbody n. destruct H as [H1 H2 H3 H4 H5]. unfold policy_in, normal_in in *. constructor; unfold policy_in, normal_in; cbn in *; try assumption. congruence.
  - destruct H as [H1 H2 H3 H4 H5]. now constructor.
  - destruct H as [H1 H2 H3 H4 H5]. now constructor.
Qed.
Lemma sane_used : forall p n b d l t, coherent p n -> used (open_dialog p n b d) l t -> sane p n t.
Proof. intros p n b d l t C. induction 1 as [|l t e _ IH U]; [now apply sane_open|]. now apply sane_happen. Qed.
Lemma painted_up_to_date : forall t, up_to_date (happens paint_all t).
Proof. intros t. repeat split. Qed.
Lemma used_paint : forall t0 l t, used t0 l t -> used t0 (l ++ paint_all) (happens paint_all t).
Proof.
  intros t0 l t U. unfold paint_all. change (l ++ [Paint_policy Old; Paint_policy New; Paint_normal Old; Paint_normal New]) with (l ++ ([Paint_policy Old] ++ ([Paint_policy New] ++ ([Paint_normal Old] ++ [Paint_normal New])))).
  rewrite !app_assoc. unfold happens. cbn [fold_left]. apply used_more; [|intros []]. apply used_more; [|intros []]. apply used_more; [|intros []]. apply used_more; [exact U|intros []].
Qed.

(** * C84 *)

(** The policies that a dialog is opened for are coherent, whatever was done before. *)
Theorem C84_start : forall tl b x l ss a p, SceneSpec.reached tl b x l ss -> In p (ax_policies (BoardModel.on_axis (BoardModel.b_axes (EditModel.ss_board ss)) a)) ->
  coherent (p_policy p) (p_normal p).
Proof.
  intros tl b x l ss a p R I. destruct (PropertiesScene.reached_sane _ _ _ _ _ R a) as (_ & _ & C). unfold all_consistent in C. rewrite Forall_forall in C. exact (C p I).
Qed.

(** Whatever is painted and whatever the user does: a policy is given nothing but a coherent pair,
    the one that the new values show; and nothing is given only if the text of d is not a number or
    the pair is not coherent. *)
Theorem C84_given : forall p n b d l t, t = happens l (open_dialog p n b d) ->
  (forall p' n' b' d', accept t = Some (p', n', b', d') -> coherent p' n' /\ p' = policy_in t New /\ n' = normal_in t New)
  /\ (accept t = None <-> t_d t = None \/ ~ coherent (policy_in t New) (normal_in t New)).
Proof.
  intros p n b d l t _. unfold accept, policy_in, normal_in. cbn. split.
  - intros p' n' b' d'. destruct (t_d t); [|discriminate]. destruct (inconsistent _ _) eqn:C; [discriminate|]. intros H. injection H as <- <- <- <-. split; [now apply coherent_ok|now split].
  - rewrite <- coherent_ok. destruct (t_d t); [|intuition]. destruct (inconsistent _ _); intuition congruence.
Qed.

(** If the user acts on what is up to date, the pair is always coherent, so that OK is refused only
    because of d; the old values stay and cannot be edited. *)
Theorem C84_coherent : forall p n b d l t, coherent p n -> used (open_dialog p n b d) l t ->
  coherent (policy_in t New) (normal_in t New) /\ (accept t = None <-> t_d t = None)
  /\ policy_in t Old = p /\ normal_in t Old = n /\ c_editable (in_old (t_policy t)) = false /\ c_editable (in_old (t_normal t)) = false.
Proof.
  intros p n b d l t C U. pose proof (sane_used _ _ _ _ _ _ C U) as [H1 H2 H3 [H4 H5] [H6 H7]]. split; [exact H1|]. split; [|now repeat split].
  unfold accept. apply coherent_ok in H1. unfold policy_in, normal_in in H1. cbn in H1. rewrite H1. destruct (t_d t); intuition congruence.
Qed.

(** The policy chosen is the one there is then, with the normal there was if it goes with it; a
    normal is taken if it goes with the policy, and does not change it. *)
Theorem C84_chosen : forall p n b d l t, coherent p n -> used (open_dialog p n b d) l t -> up_to_date t ->
  (forall x, policy_in (happen (Pick_policy New (Some x)) t) New = x /\ normal_in (happen (Pick_policy New (Some x)) t) New = adapted x (normal_in t New))
  /\ (forall x, policy_in (happen (Pick_normal New (Some x)) t) New = policy_in t New
      /\ normal_in (happen (Pick_normal New (Some x)) t) New = if inconsistent (policy_in t New) x then normal_in t New else x)
  /\ (forall e, e = Pick_policy New None \/ e = Pick_normal New None -> policy_in (happen e t) New = policy_in t New /\ normal_in (happen e t) New = normal_in t New).
Proof.
  intros p n b d l t C U (A1 & A2 & A3 & A4). pose proof (sane_used _ _ _ _ _ _ C U) as [H1 H2 H3 H4 H5].
  assert (P : forall x, policy_in (commit_policy New x t) New = x /\ normal_in (commit_policy New x t) New = adapted x (normal_in t New)).
  { intros x. unfold commit_policy, enforce, policy_in, normal_in. cbn. rewrite A2. cbn. destruct x; [split; reflexivity|split; reflexivity|]. destruct (c_value (in_new (t_normal t))) eqn:N; cbn; rewrite ?N; split; reflexivity. }
  assert (O : opened_on (in_new (t_normal t)) = normal_in t New) by (unfold opened_on; now rewrite A4).
  assert (O' : opened_on (in_new (t_policy t)) = policy_in t New) by (unfold opened_on; now rewrite A3).
  split; [|split].
  - intros x. cbn [happen in_column]. rewrite H2. apply P.
  - intros x. cbn [happen in_column]. destruct (c_editable (in_new (t_normal t))) eqn:E.
    + split; [reflexivity|]. rewrite O. destruct (allowed t x) eqn:L.
      * apply allowed_new in L; [|exact A1]. apply coherent_ok in L. rewrite L. reflexivity.
      * destruct (inconsistent (policy_in t New) x) eqn:K; [reflexivity|]. apply coherent_ok in K. apply allowed_new in K; [congruence|exact A1].
    + split; [reflexivity|]. specialize (H3 eq_refl). destruct (inconsistent (policy_in t New) x) eqn:K; [reflexivity|]. apply coherent_ok in K. rewrite H3 in *. unfold coherent in *. destruct (policy_in t New), x; intuition congruence.
  - intros e [->| ->]; cbn [happen in_column].
    + rewrite H2, O'. destruct (P (policy_in t New)) as [P1 P2]. split; [exact P1|]. rewrite P2. unfold coherent in H1. destruct (policy_in t New), (normal_in t New); cbn; intuition congruence.
    + destruct (c_editable (in_new (t_normal t))); [rewrite O; split; reflexivity|split; reflexivity].
Qed.

(** Any coherent pair can be had, by choosing the policy, then the normal. *)
Theorem C84_any : forall p n b d l t x y, coherent p n -> used (open_dialog p n b d) l t -> coherent x y ->
  exists l' t', used (open_dialog p n b d) (l ++ l') t' /\ policy_in t' New = x /\ normal_in t' New = y.
Proof.
  intros p n b d l t x y C U K. exists (paint_all ++ [Pick_policy New (Some x)] ++ paint_all ++ [Pick_normal New (Some y)]).
  pose proof (used_paint _ _ _ U) as U1. assert (U2 := used_more _ _ _ (Pick_policy New (Some x)) U1 (fun _ => painted_up_to_date t)).
  pose proof (used_paint _ _ _ U2) as U3. set (t2 := happen _ (happens paint_all t)) in *. assert (U4 := used_more _ _ _ (Pick_normal New (Some y)) U3 (fun _ => painted_up_to_date t2)).
  eexists. split; [rewrite !app_assoc; exact U4|].
  destruct (C84_chosen _ _ _ _ _ _ C U1 (painted_up_to_date t)) as (P & _). destruct (P x) as [P1 _]. fold t2 in P1.
  destruct (C84_chosen _ _ _ _ _ _ C U3 (painted_up_to_date t2)) as (_ & N & _). destruct (N y) as [N1 N2].
  assert (E : policy_in (happens paint_all t2) New = x) by exact P1. rewrite E in N1, N2. split; [exact N1|]. rewrite N2. apply coherent_ok in K. now rewrite K.
Qed.

(** What the user does not touch is given back as it was. *)
Theorem C84_untouched : forall p n b d l t, coherent p n -> used (open_dialog p n b (Some d)) l t -> (forall e, In e l -> ~ by_user e) -> accept t = Some (p, n, b, d).
Proof.
  intros p n b d l t C U F. assert (H : policy_in t New = p /\ normal_in t New = n /\ t_enabled t = b /\ t_d t = Some d).
  { induction U as [|l t e U IH K]; [now repeat split|]. destruct IH as (I1 & I2 & I3 & I4); [intros x X; apply F, in_or_app; now left|].
    assert (N : ~ by_user e) by (apply F, in_or_app; right; now left). unfold policy_in, normal_in in *. destruct e as [c|c|c x|c x|x|x]; cbn in N; try tauto; destruct c; cbn in *; now repeat split. }
  destruct H as (H1 & H2 & H3 & H4). unfold accept. rewrite H4. unfold policy_in, normal_in in H1, H2. cbn in H1, H2. rewrite H1, H2, H3. apply coherent_ok in C. now rewrite C.
Qed.

(** What is checked and typed is what the policy is given, the last time it was; what was there if it
    never was; whatever else happens. *)
Fixpoint last_checked (b : bool) (l : list event) : bool := match l with [] => b | Check x :: r => last_checked x r | _ :: r => last_checked b r end.
Fixpoint last_typed (d : option Q) (l : list event) : option Q := match l with [] => d | Type_d x :: r => last_typed x r | _ :: r => last_typed d r end.
Theorem C84_typed : forall p n b d l p' n' b' d', accept (happens l (open_dialog p n b d)) = Some (p', n', b', d') -> b' = last_checked b l /\ last_typed d l = Some d'.
Proof.
  assert (E : forall l t, t_enabled (happens l t) = last_checked (t_enabled t) l /\ t_d (happens l t) = last_typed (t_d t) l).
  { induction l as [|e l IH]; intros t; [split; reflexivity|]. change (happens (e :: l) t) with (happens l (happen e t)). destruct (IH (happen e t)) as [-> ->].
    destruct e as [c|c|c x|c x|x|x]; cbn; try (split; reflexivity).
    - destruct (c_editable _); [|split; reflexivity]. unfold commit_policy, enforce. cbn. destruct (t_at_normal t); [|split; reflexivity]. destruct x as [[]|]; try (split; reflexivity); cbn; [|destruct (opened_on _); try (split; reflexivity)]; destruct (c_value _); split; reflexivity.
    - destruct (c_editable _); split; reflexivity. }
  intros p n b d l p' n' b' d'. unfold accept. destruct (E l (open_dialog p n b d)) as [-> ->]. cbn [open_dialog t_enabled t_d].
  destruct (last_typed d l); [|discriminate]. destruct (inconsistent _ _); [discriminate|]. intros H. injection H as _ _ <- <-. split; reflexivity.
Qed.

(** Once a policy is chosen its normal can be edited for THIRDS and only then; the cells show at once
    what was chosen. *)
Theorem C84_held : forall p n b d l t, coherent p n -> used (open_dialog p n b d) l t -> up_to_date t ->
  (forall x, (c_editable (in_new (t_normal (happen (Pick_policy New (Some x)) t))) = true <-> x = THIRDS)
      /\ c_text (in_new (t_policy (happen (Pick_policy New (Some x)) t))) = Some x)
  /\ (forall y, c_editable (in_new (t_normal t)) = true -> coherent (policy_in t New) y -> c_text (in_new (t_normal (happen (Pick_normal New (Some y)) t))) = Some y).
Proof.
  intros p n b d l t C U (A1 & A2 & A3 & A4). pose proof (sane_used _ _ _ _ _ _ C U) as [H1 H2 H3 H4 H5]. split.
  - intros x. cbn [happen in_column]. rewrite H2. unfold commit_policy, enforce. cbn. rewrite A2. cbn. unfold normal_in in H3. cbn in H3.
    destruct x; cbn; try (split; [split; congruence|reflexivity]).
    destruct (c_value (in_new (t_normal t))) eqn:N; cbn; (split; [split; [congruence|]|reflexivity]); try reflexivity;
      destruct (c_editable (in_new (t_normal t))); intuition congruence.
  - intros y E K. cbn [happen in_column]. rewrite E. apply (proj2 (allowed_new t y A1)) in K. rewrite K. reflexivity.
Qed.

(** Wrong: that the pair is coherent whatever is painted.  After the old normal is painted alone, as
    when the mouse goes over it, choosing THIRDS adapts the old normal, and OK does nothing. *)
Definition over_old : list event := paint_all ++ [Paint_normal Old] ++ [Pick_policy New (Some THIRDS)].
Theorem C84_painted_refuted : ~ (forall p n b d l t, coherent p n -> t = happens l (open_dialog p n b (Some d)) -> accept t <> None).
Proof. intros H. apply (H ONELINE NNONE true 1 over_old _ (proj1 (coherent_ok ONELINE NNONE) eq_refl) eq_refl). reflexivity. Qed.
(** Wrong as well: that the old values stay. *)
Theorem C84_old_refuted : ~ (forall p n b d l t, coherent p n -> t = happens l (open_dialog p n b d) -> normal_in t Old = n /\ c_editable (in_old (t_normal t)) = false).
Proof. intros H. destruct (H ONELINE NNONE true None over_old _ (proj1 (coherent_ok ONELINE NNONE) eq_refl) eq_refl) as [A _]. discriminate A. Qed.

(** ** Dialogs *)

(** A ONELINE policy is made THIRDS, looking to the maximum, and d is changed. *)
Definition to_thirds : list event := paint_all ++ [Pick_policy New (Some THIRDS)] ++ paint_all ++ [Pick_normal New (Some NMAX); Paint_normal Old; Paint_normal New; Type_d (Some (1 # 2))].
Example C84_example : let t := happens to_thirds (open_dialog ONELINE NNONE true (Some 1)) in
  used (open_dialog ONELINE NNONE true (Some 1)) to_thirds t /\ coherent ONELINE NNONE /\ accept t = Some (THIRDS, NMAX, true, 1 # 2).
Proof.
  cbv zeta. split; [|split; [apply coherent_ok; reflexivity|reflexivity]].
  unfold to_thirds. rewrite !app_assoc. assert (U := used_more _ _ _ (Pick_policy New (Some THIRDS)) (used_paint _ _ _ (used_none (open_dialog ONELINE NNONE true (Some 1)))) (fun _ => painted_up_to_date _)).
  apply used_paint in U. apply (used_more _ _ _ (Pick_normal New (Some NMAX))) in U; [|intros _; apply painted_up_to_date]. apply (used_more _ _ _ (Paint_normal Old)) in U; [|intros []].
  apply (used_more _ _ _ (Paint_normal New)) in U; [|intros []]. apply (used_more _ _ _ (Type_d (Some (1 # 2)))) in U; [|intros _; now repeat split]. exact U.
Qed.
(** A field is emptied, then filled again, and the box is unchecked. *)
Example C84_typed_example : accept (happens [Type_d None; Check true; Type_d (Some 2); Check false] (open_dialog ONELINE NNONE true (Some 1))) = Some (ONELINE, NNONE, false, 2).
Proof. reflexivity. Qed.
(** A policy to edit, after the steps. *)
Example C84_start_example : SceneSpec.reached PropertiesEdit.plain_tools PropertiesScene.three_boxes PropertiesEdit.coarse [SceneSpec.Run_steps] PropertiesScene.boxes_session
  /\ exists p, nth_error (ax_policies (BoardModel.on_axis (BoardModel.b_axes (EditModel.ss_board PropertiesScene.boxes_session)) GeomModel.AY)) 2 = Some p /\ p_policy p = THIRDS /\ p_normal p <> NNONE.
Proof. split; [exact PropertiesScene.boxes_reached|]. eexists. split; [vm_compute; reflexivity|]. split; [reflexivity|discriminate]. Qed.

Print Assumptions C84_start.
Print Assumptions C84_given.
Print Assumptions C84_coherent.
Print Assumptions C84_chosen.
Print Assumptions C84_any.
Print Assumptions C84_untouched.
Print Assumptions C84_typed.
Print Assumptions C84_held.
Print Assumptions C84_painted_refuted.
Print Assumptions C84_old_refuted.
