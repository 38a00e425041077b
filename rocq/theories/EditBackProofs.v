(** Boards with diagonal zones: going back a step, and the dialogs of intervals. *)
From Coq Require Import List Arith Bool Lia QArith.
From Verif Require Import IntervalModel ManagerModel ManagerSpec GeomModel BoardModel BoardSpec BoardProofs.
From Verif Require AppModel.
Import AppModel(Step(..), Step_eqb, next, that_and_after).
From Verif Require Import EditModel EditSpec EditProofs.
Import ListNotations.

Lemma kept_same {A} (l : list A) : kept l l = l.
Proof. induction l as [|x l IH]; cbn; [reflexivity|]. now rewrite IH. Qed.
Lemma revert_same tl b now : no_fixed tl -> b_angles now = b_angles b -> b_zones now = b_zones b -> revert tl b now = b.
Proof.
  intros F A Z. unfold revert. rewrite A, Z, !F, !kept_same. unfold revert_axis. cbn. destruct b as [g e a bg ce ei [z0 z1 z2] [[] [] []]]. reflexivity.
Qed.

Section WithTools.
Context (tl : tools).
Notation play := (play tl).

(** The last steps of a run, with diagonal zones. *)
Lemma opened_back b x ss : opened tl b x ss -> ~ without_zones (ss_board ss) -> exists b12 b13 b14 past,
  before_mesh tl b x b14
  /\ do_step tl x DETECT_INTERVALS_PER_DIAG_ZONES b12 = Done b13 /\ do_step tl x SOLVE_DIAG_ZONES_INTERVALS b13 = Done b14 /\ do_step tl x MESH b14 = Done (ss_board ss)
  /\ ss = mk_session (ss_board ss) x None ((MESH, (b14, x)) :: (SOLVE_DIAG_ZONES_INTERVALS, (b13, x)) :: (DETECT_INTERVALS_PER_DIAG_ZONES, (b12, x)) :: past)
  /\ b_zones b13 = b_zones b14.
Proof.
  intros O W. destruct (opened_split _ _ _ _ O) as (s3 & s4 & s13 & s14 & E3 & E4 & E13 & E14 & E15).
  assert (Z15 : b_zones (ss_board ss) = b_zones (ss_board s14)) by (eapply step_zones; [|exact E15]; discriminate).
  assert (Z14 : b_zones (ss_board s14) = b_zones (ss_board s13)) by (eapply step_zones; [|exact E14]; discriminate).
  assert (B : run_list tl (removelast (that_and_after ADJUST_EDGE_TO_MATERIAL)) (loaded b x) = Done s14).
  { change (removelast (that_and_after ADJUST_EDGE_TO_MATERIAL)) with (early ++ [SOLVE_DIAG_ZONES_ANGLES] ++ middle ++ [SOLVE_DIAG_ZONES_INTERVALS]).
    rewrite run_list_app, E3. cbn [bind]. rewrite run_list_app. cbn [run_list]. rewrite E4. cbn [bind]. rewrite run_list_app, E13. cbn [bind run_list]. now rewrite E14. }
  destruct (run_list_board _ _ _ _ B) as [_ X14]. cbn in X14.
  change middle with ((removelast (removelast middle) ++ [DETECT_INTERVALS]) ++ [DETECT_INTERVALS_PER_DIAG_ZONES]) in E13.
  apply run_list_split in E13. destruct E13 as (s12 & E12 & E13). apply run_list_split in E12. destruct E12 as (s11 & E11 & E12). apply run_list_one in E12, E13.
  pose proof (run_step_done _ _ _ _ E12) as (_ & _ & [(C & _)|(_ & H12 & _)]); [discriminate C|].
  pose proof (run_step_done _ _ _ _ E13) as (D13 & X13 & [(C & _)|(_ & H13 & P13)]); [discriminate C|]. unfold mark in P13. rewrite H12 in P13.
  pose proof (run_step_done _ _ _ _ E14) as (D14 & X14' & [(C & _)|(_ & H14 & P14)]).
  { exfalso. apply W. apply without_zones_count. cbn [creates] in C. apply Nat.ltb_ge in C. unfold zone_count in *. rewrite Z15, Z14. lia. }
  unfold mark in P14. rewrite H13 in P14.
  pose proof (run_step_done _ _ _ _ E15) as (D15 & X15 & [(C & _)|(_ & H15 & P15)]); [discriminate C|]. unfold mark in P15. rewrite H14 in P15.
  exists (ss_board s12), (ss_board s13), (ss_board s14), (ss_past s12). split; [now exists s14|].
  assert (ss_settings s13 = x) as X13' by congruence. assert (ss_settings s12 = x) as X12 by congruence. rewrite X12 in D13, P13. rewrite X13' in D14, P14. rewrite X14 in D15, P15.
  do 3 (split; [assumption|]). split; [|now symmetry]. destruct ss as [c y h past]. cbn in *. congruence.
Qed.

Lemma step_angles x s b b' : In s [DETECT_INTERVALS_PER_DIAG_ZONES; SOLVE_DIAG_ZONES_INTERVALS; MESH] -> do_step tl x s b = Done b' -> b_angles b' = b_angles b /\ b_zones b' = b_zones b.
Proof. intros I D. apply do_step_only in D. split; [apply (proj2 D FAngles)|apply (proj2 D FZones)]; destruct I as [<-|[<-|[<-|[]]]]; reflexivity. Qed.

Lemma run_step_created x s b b' h past : do_step tl x s b = Done b' -> creates tl s b b' = true ->
  run_step tl s (mk_session b x h past) = Done (mk_session b' x None ((match h with Some t => t | None => s end, (b, x)) :: past)).
Proof. intros D C. unfold run_step. cbn [annotate ss_settings ss_board ss_here ss_past]. rewrite D. cbn [bind]. rewrite C. unfold leave. cbn. destruct h; reflexivity. Qed.

Theorem back_forth b x ss n : no_fixed tl -> opened tl b x ss -> ~ without_zones (ss_board ss) -> (n <= 2)%nat -> next_steps tl n (previous_steps tl n ss) = Done ss.
Proof.
  intros F O W L. destruct (opened_back _ _ _ O W) as (b12 & b13 & b14 & past & _ & D13 & D14 & D15 & E & _).
  destruct (step_angles _ _ _ _ (or_intror (or_intror (or_introl eq_refl))) D15) as [A15 Z15]. destruct (step_angles _ _ _ _ (or_intror (or_introl eq_refl)) D14) as [A14 Z14].
  assert (W13 : (0 <? zone_count b13)%nat = true).
  { apply Nat.ltb_lt. destruct (zone_count b13) eqn:C; [|lia]. exfalso. apply W, without_zones_count. unfold zone_count in *. now rewrite Z15, Z14. }
  rewrite E. destruct n as [|[|[|n]]]; [reflexivity| | |lia]; cbn [previous_steps next_steps previous_step ss_past ss_board].
  - rewrite (revert_same tl b14) by assumption. unfold next_step. cbn [ss_past next]. now rewrite (run_step_created x MESH b14 (ss_board ss)).
  - rewrite (revert_same tl b14), (revert_same tl b13) by assumption. unfold next_step at 1. cbn [ss_past next].
    rewrite (run_step_created x SOLVE_DIAG_ZONES_INTERVALS b13 b14) by assumption. cbn [bind]. unfold next_step. cbn [ss_past next].
    now rewrite (run_step_created x MESH b14 (ss_board ss)).
Qed.

(** A session whose last step is the mesh of [b1]. *)
Definition meshed_from (x : settings) (b1 : board) (ss : session) : Prop :=
  exists past, ss = mk_session (ss_board ss) x None ((MESH, (b1, x)) :: past) /\ do_step tl x MESH b1 = Done (ss_board ss).

Lemma edit_interval_mesh x b1 ss d ss' : no_fixed tl -> is_interval d = true -> meshed_from x b1 ss -> edit tl d ss = Done ss' ->
  exists b2, interval_writes [d] b1 b2 /\ meshed_from x b2 ss'.
Proof.
  intros F I (past & E & D) Ed. destruct d; try discriminate I. cbn [edit] in Ed. unfold edit_interval, edit_from in Ed.
  destruct (step_angles _ _ _ _ (or_intror (or_intror (or_introl eq_refl))) D) as [A Z].
  assert (G : go_before tl MESH ss = mk_session b1 x (Some MESH) past).
  { rewrite E. unfold go_before. cbn -[revert]. now rewrite (revert_same tl b1). }
  rewrite G in Ed. unfold edit_board at 1, on_one_axis in Ed. cbn [ss_board ss_settings] in Ed.
  destruct (ManagerModel.edit_interval _ i dmax lmin_b smoothness_b lmin_a smoothness_a) as [y| |] eqn:Y; try discriminate Ed. cbn [bind] in Ed.
  apply run_list_one in Ed. exists (set_axes b1 (set_axis (b_axes b1) ax y)). split; [econstructor; [exact Y|constructor]|].
  pose proof (run_step_done _ _ _ _ Ed) as (D' & X' & [(C & _)|(_ & H' & P')]); [discriminate C|]. unfold mark, next_state in *. cbn in *.
  eexists. split; [|exact D']. destruct ss' as [c z h p]. cbn in *. subst. reflexivity.
Qed.

Theorem intervals_meshed x : no_fixed tl -> forall l b1 ss ss', forallb is_interval l = true -> meshed_from x b1 ss -> edits tl l ss = Done ss' ->
  exists b2, interval_writes l b1 b2 /\ meshed_from x b2 ss'.
Proof.
  intros F l. induction l as [|d l IH]; intros b1 ss ss' I M E; cbn in E.
  - injection E as <-. exists b1. split; [constructor|assumption].
  - destruct (edit tl d ss) as [s1| |] eqn:E1; try discriminate. cbn [bind] in E. cbn in I. apply andb_true_iff in I. destruct I as [I1 I].
    destruct (edit_interval_mesh x b1 ss d s1 F I1 M E1) as (b2 & W1 & M1). destruct (IH b2 s1 ss' I M1 E) as (b3 & W2 & M2). exists b3. split; [|assumption].
    inversion W1; subst. econstructor; [eassumption|]. match goal with H : interval_writes [] _ _ |- _ => inversion H; subst end. assumption.
Qed.

Lemma opened_meshed b x ss : opened tl b x ss -> ~ without_zones (ss_board ss) -> exists b1, before_mesh tl b x b1 /\ meshed_from x b1 ss.
Proof.
  intros O W. destruct (opened_back _ _ _ O W) as (b12 & b13 & b14 & past & B & D13 & D14 & D15 & E & _). exists b14. split; [assumption|]. eexists. split; [exact E|assumption].
Qed.
End WithTools.
