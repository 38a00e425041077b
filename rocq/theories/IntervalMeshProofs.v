(** The lines of a meshed interval. *)
From Coq Require Import List Arith Bool QArith Qabs Qround Qminmax Lia Lqa.
From Verif Require Import IntervalModel IntervalSpec IntervalProofs IntervalSolveProofs.
Import ListNotations.
Open Scope Q_scope.

(* ------------------------------------------------------------------ *)
(** * Lists of positions *)

Notation qlist_eq := (Forall2 Qeq).

Lemma qlist_eq_refl l : qlist_eq l l.
Proof. induction l; constructor; [reflexivity|assumption]. Qed.

Lemma increasing_eq l l' : qlist_eq l l' -> increasing l -> increasing l'.
Proof.
  induction 1 as [|a a' r r' E F IH]; intros H; [exact I|].
  destruct F as [|b b' t t' E' F]; [exact I|]. cbn in *. destruct H as [H1 H2].
  split; [lra|]. apply IH. exact H2.
Qed.

Lemma within_eq x l l' : qlist_eq l l' -> within x l -> within x l'.
Proof.
  induction 1 as [|a a' r r' E F IH]; intros H; [exact I|].
  destruct F as [|b b' t t' E' F]; [exact I|]. cbn in *. destruct H as [H1 H2].
  split; [lra|]. apply IH. exact H2.
Qed.

Lemma growth_weaken r d d' l : 0 <= r -> d <= d' -> growth r d l -> growth r d' l.
Proof.
  intros R L. destruct l as [|a [|b t]]; cbn; auto. intros [H1 H2]. split; [nra|exact H2].
Qed.

Lemma growth_eq r l l' : 0 <= r -> qlist_eq l l' -> forall d, growth r d l -> growth r d l'.
Proof.
  intros R. induction 1 as [|a a' t t' E F IH]; intros d H; [exact I|].
  destruct F as [|b b' u u' E' F]; [exact I|]. destruct H as [H1 H2].
  split; [lra|]. change (growth r (b' - a') (b' :: u')).
  apply (growth_weaken r (b - a)); [exact R|lra|]. apply IH. exact H2.
Qed.

Lemma increasing_app l1 m l2 : increasing (l1 ++ [m]) -> increasing (m :: l2) -> increasing (l1 ++ m :: l2).
Proof.
  induction l1 as [|a r IH]; intros H1 H2; [exact H2|].
  destruct r as [|b t]; cbn in *.
  - destruct H1. split; auto.
  - destruct H1 as [H H1]. split; [exact H|]. apply IH; auto.
Qed.

Lemma within_app x l1 m l2 : within x (l1 ++ [m]) -> within x (m :: l2) -> within x (l1 ++ m :: l2).
Proof.
  induction l1 as [|a r IH]; intros H1 H2; [exact H2|].
  destruct r as [|b t]; cbn in *.
  - destruct H1. split; auto.
  - destruct H1 as [H H1]. split; [exact H|]. apply IH; auto.
Qed.

Lemma increasing_map c l : increasing l -> increasing (map (fun x => c + x) l).
Proof.
  induction l as [|a r IH]; [intros; exact I|]. destruct r as [|b t]; [intros; exact I|].
  intros [H1 H2]. split; [lra|exact (IH H2)].
Qed.

Lemma within_map x c l : within x l -> within x (map (fun x => c + x) l).
Proof.
  induction l as [|a r IH]; [intros; exact I|]. destruct r as [|b t]; [intros; exact I|].
  intros [H1 H2]. split; [lra|exact (IH H2)].
Qed.

Lemma growth_map r c l : 0 <= r -> forall d, growth r d l -> growth r d (map (fun x => c + x) l).
Proof.
  intros R. induction l as [|a t IH]; [intros; exact I|]. destruct t as [|b u]; [intros; exact I|].
  intros d [H1 H2]. cbn [map] in *. split; [lra|].
  change (growth r (c + b - (c + a)) (c + b :: map (fun x => c + x) u)).
  apply (growth_weaken r (b - a)); [exact R|lra|]. apply IH. exact H2.
Qed.

Lemma increasing_mirror l : increasing l -> increasing (map Qopp (rev l)).
Proof.
  induction l as [|a r IH]; [intros; exact I|]. intros H. cbn [rev].
  destruct r as [|b t]; [exact I|].
  assert (increasing (b :: t)) as H2 by apply H. assert (a < b) as H1 by apply H. specialize (IH H2).
  cbn [rev] in *. rewrite !map_app in *. cbn [map] in *. rewrite <- app_assoc. cbn [app].
  apply increasing_app; [exact IH|]. split; [lra|exact I].
Qed.

Lemma within_mirror x l : within x l -> within x (map Qopp (rev l)).
Proof.
  induction l as [|a r IH]; [intros; exact I|]. intros H. cbn [rev].
  destruct r as [|b t]; [exact I|].
  assert (within x (b :: t)) as H2 by apply H. assert (b - a <= x) as H1 by apply H. specialize (IH H2).
  cbn [rev] in *. rewrite !map_app in *. cbn [map] in *. rewrite <- app_assoc. cbn [app].
  apply within_app; [exact IH|]. split; [lra|exact I].
Qed.

(* ------------------------------------------------------------------ *)
(** * Half an interval *)

Lemma removelast_cons (a : Q) r : r <> [] -> removelast (a :: r) = a :: removelast r.
Proof. destruct r; [congruence|reflexivity]. Qed.

Lemma half_run sm dmax s cd cs ls : run sm dmax s cd cs ls -> 1 <= sm -> 0 < cd -> cd <= dmax -> cs < s ->
  increasing (cs :: removelast ls ++ [s]) /\
  within dmax (cs :: removelast ls ++ [s]) /\
  growth sm cd (cs :: removelast ls ++ [s]).
Proof.
  induction 1 as [cd cs L|cd cs ls L R IH]; intros S D M C; [lra|].
  pose proof (next_space_pos sm dmax cd S D M) as P1.
  pose proof (next_space_le_dmax sm dmax cd M) as P2.
  pose proof (next_space_le_sm sm dmax cd S D) as P3.
  set (x := next_space sm dmax cd) in *.
  inversion R as [? ? H|? ? l' H H']; subst.
  - cbn. repeat split; lra.
  - rewrite removelast_cons by discriminate.
    destruct (IH S P1 P2 H) as (I1 & I2 & I3).
    cbn [app]. split; [|split].
    + split; [lra|exact I1].
    + split; [lra|exact I2].
    + split; [lra|]. eapply growth_weaken; [lra| |exact I3]. lra.
Qed.

(** A list shaped as half of a mesh: from [x], at [c + 0], to [m], at [c + s]. *)
Lemma half d sm dmax s ls c x m : lines d sm dmax s ls -> 0 < d -> 0 < dmax -> 1 <= sm -> 0 < s ->
  x == c -> m == c + s ->
  increasing (x :: map (fun y => c + y) (removelast ls) ++ [m]) /\
  within dmax (x :: map (fun y => c + y) (removelast ls) ++ [m]) /\
  growth sm d (x :: map (fun y => c + y) (removelast ls) ++ [m]).
Proof.
  intros R D M S P X E.
  destruct (half_run _ _ _ _ _ _ R S (qmin_pos _ _ D M) (qmin_le_r _ _) P) as (I1 & I2 & I3).
  assert (qlist_eq (map (fun y => c + y) (0 :: removelast ls ++ [s])) (x :: map (fun y => c + y) (removelast ls) ++ [m])) as Q.
  { cbn [map]. rewrite map_app. constructor; [lra|]. apply Forall2_app; [apply qlist_eq_refl|].
    constructor; [lra|constructor]. }
  split; [|split].
  - eapply increasing_eq; [exact Q|]. now apply increasing_map.
  - eapply within_eq; [exact Q|]. now apply within_map.
  - eapply growth_eq; [lra|exact Q|]. apply growth_map; [lra|].
    eapply growth_weaken; [lra|apply qmin_le_l|exact I3].
Qed.

(** The mirrored half. *)
Lemma half_after d sm dmax s ls c x m : lines d sm dmax s ls -> 0 < d -> 0 < dmax -> 1 <= sm -> 0 < s ->
  x == c -> m == c - s ->
  increasing (m :: rev (map (fun y => c - y) (removelast ls)) ++ [x]) /\
  within dmax (m :: rev (map (fun y => c - y) (removelast ls)) ++ [x]) /\
  growth sm d (map Qopp (rev (m :: rev (map (fun y => c - y) (removelast ls)) ++ [x]))).
Proof.
  intros R D M S P X E.
  destruct (half d sm dmax s ls (- c) (- x) (- m) R D M S P ltac:(lra) ltac:(lra)) as (I1 & I2 & I3).
  assert (map Qopp (rev (m :: rev (map (fun y => c - y) (removelast ls)) ++ [x]))
    = - x :: map Qopp (map (fun y => c - y) (removelast ls)) ++ [- m]) as E1.
  { cbn [rev]. rewrite rev_app_distr, rev_involutive. cbn [rev app map]. rewrite map_app. reflexivity. }
  assert (qlist_eq (- x :: map (fun y => - c + y) (removelast ls) ++ [- m])
    (- x :: map Qopp (map (fun y => c - y) (removelast ls)) ++ [- m])) as Q.
  { constructor; [reflexivity|]. apply Forall2_app; [|constructor; [reflexivity|constructor]].
    rewrite map_map. clear; induction (removelast ls) as [|y r IH]; [constructor|]; cbn [map]; constructor; [lra|exact IH]. }
  assert (forall l, qlist_eq (map Qopp (map Qopp l)) l) as INV.
  { induction l; constructor; [lra|assumption]. }
  assert (qlist_eq (map Qopp (rev (map Qopp (rev (m :: rev (map (fun y => c - y) (removelast ls)) ++ [x])))))
     (m :: rev (map (fun y => c - y) (removelast ls)) ++ [x])) as Q2.
  { rewrite <- map_rev, rev_involutive. apply INV. }
  split; [|split].
  - eapply increasing_eq; [exact Q2|]. apply increasing_mirror. rewrite E1. eapply increasing_eq; eassumption.
  - eapply within_eq; [exact Q2|]. apply within_mirror. rewrite E1. eapply within_eq; eassumption.
  - rewrite E1. eapply growth_eq; [lra|exact Q|exact I3].
Qed.

(* ------------------------------------------------------------------ *)
(** * The whole interval *)

Definition sane (p : mlp) : Prop := p_policy p = THIRDS -> p_normal p <> NNONE.

Lemma di_before_pos p d : 0 < d -> is_oneline (p_policy p) = false -> 0 < d_init_before p d.
Proof.
  intros D. unfold d_init_before. destruct (p_policy p); cbn; try discriminate; intros _.
  - apply Qlt_shift_div_l; lra.
  - destruct (p_normal p); lra.
Qed.

Lemma di_after_pos p d : 0 < d -> is_oneline (p_policy p) = false -> 0 < d_init_after p d.
Proof.
  intros D. unfold d_init_after. destruct (p_policy p); cbn; try discriminate; intros _.
  - apply Qlt_shift_div_l; lra.
  - destruct (p_normal p); lra.
Qed.

Lemma di_before_oneline p d : is_oneline (p_policy p) = true -> d_init_before p d = 0.
Proof. unfold d_init_before. destruct (p_policy p); cbn; congruence. Qed.

Lemma di_after_oneline p d : is_oneline (p_policy p) = true -> d_init_after p d = 0.
Proof. unfold d_init_after. destruct (p_policy p); cbn; congruence. Qed.

Lemma increasing_cons a b l : a < b -> increasing (b :: l) -> increasing (a :: b :: l).
Proof. intros H1 H2. split; assumption. Qed.

Lemma mesh_facts b a iv : ready b a iv ->
  solved d_init_before (iv_h iv) (iv_dmax iv) b (iv_before iv) ->
  solved d_init_after (iv_h iv) (iv_dmax iv) a (iv_after iv) ->
  d_init_before b (p_d b) < iv_h iv -> d_init_after a (p_d a) < iv_h iv ->
  exists l1 l2,
    mesh_interval b a iv = l1 ++ [iv_m iv] ++ l2 /\
    increasing (p_coord b :: (l1 ++ [iv_m iv] ++ l2) ++ [p_coord a]) /\
    (let first := (if is_oneline (p_policy b) then [p_coord b] else []) ++ l1 ++ [iv_m iv] in
     within (iv_dmax iv) first /\ growth (sd_smoothness (iv_before iv)) (p_d b) first) /\
    (let second := [iv_m iv] ++ l2 ++ (if is_oneline (p_policy a) then [p_coord a] else []) in
     within (iv_dmax iv) second /\ growth (sd_smoothness (iv_after iv)) (p_d a) (map Qopp (rev second))).
Proof.
  intros [Ro Rh Rm Rd Rsb Rsa Rdb Rda] Sb Sa Hb Ha. unfold solved in *.
  set (db := d_init_before b (p_d b)) in *. set (da := d_init_after a (p_d a)) in *.
  assert ((p_coord a - p_coord b) / 2 == (1 # 2) * (p_coord a - p_coord b)) as HA by field.
  assert ((p_coord a + p_coord b) / 2 == (1 # 2) * (p_coord a + p_coord b)) as HB by field.
  assert (iv_m iv == p_coord b + db + (iv_h iv - db)) as Mb by lra.
  assert (iv_m iv == p_coord a - da - (iv_h iv - da)) as Ma by lra.
  pose proof (half _ _ _ _ _ (p_coord b + db) (p_coord b + db) (iv_m iv) Sb Rdb Rd Rsb ltac:(lra) (Qeq_refl _) Mb) as HALF1.
  pose proof (half_after _ _ _ _ _ (p_coord a - da) (p_coord a - da) (iv_m iv) Sa Rda Rd Rsa ltac:(lra) (Qeq_refl _) Ma) as HALF2.
  set (bl := map (fun y => p_coord b + db + y) (removelast (sd_ls (iv_before iv)))) in *.
  set (al := rev (map (fun y => p_coord a - da - y) (removelast (sd_ls (iv_after iv))))) in *.
  set (L1 := (if is_oneline (p_policy b) then [] else [p_coord b + db]) ++ bl).
  set (L2 := al ++ (if is_oneline (p_policy a) then [] else [p_coord a - da])).
  assert (F1 : increasing (p_coord b :: L1 ++ [iv_m iv]) /\
    within (iv_dmax iv) ((if is_oneline (p_policy b) then [p_coord b] else []) ++ L1 ++ [iv_m iv]) /\
    growth (sd_smoothness (iv_before iv)) (p_d b) ((if is_oneline (p_policy b) then [p_coord b] else []) ++ L1 ++ [iv_m iv])).
  { unfold L1. destruct (is_oneline (p_policy b)) eqn:O.
    - assert (db == 0) as Z by (unfold db; now rewrite di_before_oneline).
      apply (half _ _ _ _ _ (p_coord b + db) (p_coord b) (iv_m iv) Sb Rdb Rd Rsb); lra.
    - pose proof (di_before_pos b (p_d b) Rdb O) as Z. fold db in Z.
      destruct HALF1 as (I1 & I2 & I3). cbn [app] in *. split; [|split; assumption].
      apply increasing_cons; [lra|exact I1]. }
  assert (F2 : increasing (iv_m iv :: L2 ++ [p_coord a]) /\
    within (iv_dmax iv) ([iv_m iv] ++ L2 ++ (if is_oneline (p_policy a) then [p_coord a] else [])) /\
    growth (sd_smoothness (iv_after iv)) (p_d a) (map Qopp (rev ([iv_m iv] ++ L2 ++ (if is_oneline (p_policy a) then [p_coord a] else []))))).
  { unfold L2. destruct (is_oneline (p_policy a)) eqn:O.
    - assert (da == 0) as Z by (unfold da; now rewrite di_after_oneline). rewrite app_nil_r.
      apply (half_after _ _ _ _ _ (p_coord a - da) (p_coord a) (iv_m iv) Sa Rda Rd Rsa); lra.
    - pose proof (di_after_pos a (p_d a) Rda O) as Z. fold da in Z.
      destruct HALF2 as (I1 & I2 & I3). rewrite app_nil_r. split; [|split; assumption].
      rewrite <- app_assoc. cbn [app]. rewrite app_comm_cons.
      apply increasing_app; [exact I1|]. split; [lra|exact I]. }
  destruct F1 as (A1 & A2 & A3). destruct F2 as (B1 & B2 & B3).
  exists L1, L2. split.
  - unfold mesh_interval, L1, L2. fold db da. cbn zeta. rewrite <- app_assoc. reflexivity.
  - split; [|split; split; assumption].
    rewrite <- app_assoc. rewrite <- app_assoc. cbn [app]. rewrite app_comm_cons.
    apply increasing_app; assumption.
Qed.

Lemma make_interval_ready g b a : 0 < g_dmax g -> 1 <= g_smoothness g -> 0 < p_d b -> 0 < p_d a ->
  p_coord b < p_coord a -> forall b' a' iv, make_interval g b a = (b', a', iv) -> ready b' a' iv.
Proof.
  intros M S Db Da C b' a' iv E. unfold make_interval in E. injection E as <- <- <-.
  assert (calc_h (p_coord b) (p_coord a) == (p_coord a - p_coord b) / 2) as H.
  { unfold calc_h, coord_distance. rewrite Qabs_neg by lra. field. }
  assert (0 < calc_h (p_coord b) (p_coord a)) as H0.
  { rewrite H. apply Qlt_shift_div_l; lra. }
  assert (forall p, p_coord (clamp_d (calc_h (p_coord b) (p_coord a)) p) = p_coord p) as HC.
  { intros p. unfold clamp_d. now destruct (Qltb _ _). }
  assert (forall p, 0 < p_d p -> 0 < p_d (clamp_d (calc_h (p_coord b) (p_coord a)) p)) as HD.
  { intros p P. unfold clamp_d. destruct (Qltb _ _); cbn; assumption. }
  constructor; cbn; try rewrite !HC; auto.
  unfold coord_mid. field.
Qed.
