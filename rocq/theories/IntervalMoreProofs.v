(** Counter-examples and special cases of the meshing of an interval. *)
From Coq Require Import List Arith Bool QArith Qabs Qround Qminmax Lia Lqa.
From Verif Require Import IntervalModel IntervalSpec IntervalProofs IntervalSolveProofs IntervalMeshProofs.
Import ListNotations.
Open Scope Q_scope.

(* ------------------------------------------------------------------ *)
(** * Loops without end *)

Lemma update_ls_hangs di h dmax p sd : 0 <= sd_smoothness sd -> p_d p <= 0 \/ dmax <= 0 -> 0 < h - di p (p_d p) ->
  hangs (fun n => update_ls n di h dmax p sd).
Proof.
  intros S D P n. unfold update_ls.
  pose proof (find_ls_hangs (p_d p) (sd_smoothness sd) dmax _ S D P n) as H. cbn beta in H. now rewrite H.
Qed.

Lemma auto_solve_d_hangs_before b a iv : 0 <= sd_smoothness (iv_before iv) -> p_d b <= 0 \/ iv_dmax iv <= 0 ->
  d_init_before b (p_d b) < iv_h iv -> hangs (fun n => auto_solve_d n b a iv).
Proof.
  intros S D P n. unfold auto_solve_d. cbn zeta.
  pose proof (update_ls_hangs d_init_before (iv_h iv) (iv_dmax iv) b (iv_before iv) S D ltac:(lra) n) as H.
  cbn beta in H. now rewrite H.
Qed.

Lemma auto_solve_d_hangs_after b a iv : 0 <= sd_smoothness (iv_after iv) -> p_d a <= 0 \/ iv_dmax iv <= 0 ->
  d_init_after a (p_d a) < iv_h iv -> hangs (fun n => auto_solve_d n b a iv).
Proof.
  intros S D P n. unfold auto_solve_d. cbn zeta.
  pose proof (update_ls_hangs d_init_after (iv_h iv) (iv_dmax iv) a (iv_after iv) S D ltac:(lra) n) as H.
  cbn beta in H. rewrite H. now destruct (update_ls n d_init_before _ _ b _).
Qed.

Lemma lines_empty d sm dmax s : s <= 0 -> lines d sm dmax s [].
Proof. intros H. now constructor. Qed.

(** No line fits: adjust_d never finds an acceptable [d]. *)
Lemma adjust_d_loop_hangs di h dmax p sd : proportional di -> h <= 0 -> forall n d ls, 0 <= d -> ls = [] ->
  adjust_d_loop n di h dmax p sd d ls = None.
Proof.
  intros P H. induction n as [|n IH]; intros d ls D ->; [reflexivity|]. cbn [adjust_d_loop].
  assert (is_ls_valid [] d (sd_smoothness sd) dmax (sd_lmin sd) = false) as ->.
  { unfold is_ls_valid. destruct (Qltb dmax d); [reflexivity|]. destruct (length [] <? sd_lmin sd)%nat; reflexivity. }
  cbn zeta.
  assert (0 <= d - d / 1000) as D1 by (assert (d / 1000 == d * (1 # 1000)) as -> by field; lra).
  pose proof (di_le di p (d - d / 1000) P D1) as [G _].
  rewrite (lines_find_ls _ _ _ _ _ (lines_empty (d - d / 1000) (sd_smoothness sd) dmax (h - di p (d - d / 1000)) ltac:(lra)))
    by (cbn; lia).
  now apply IH.
Qed.

Lemma coincident_hangs g b a : p_coord b == p_coord a -> 0 <= p_d b -> 0 <= p_d a -> 0 <= g_dmax g ->
  forall b' a' iv, make_interval g b a = (b', a', iv) -> hangs (fun n => auto_solve_d n b' a' iv).
Proof.
  intros C Db Da M b' a' iv E n. unfold make_interval in E. injection E as <- <- <-.
  set (h := calc_h (p_coord b) (p_coord a)).
  assert (h == 0) as H.
  { unfold h, calc_h, coord_distance. rewrite Qabs_pos by lra. rewrite C. field. }
  assert (forall p, 0 <= p_d p -> p_d (clamp_d h p) == 0) as HD.
  { intros p P. unfold clamp_d. destruct (Qltb_spec h (p_d p)); cbn; lra. }
  pose proof (HD b Db) as Hb. pose proof (HD a Da) as Ha. clear HD. clearbody h.
  set (b1 := clamp_d h b) in *. set (a1 := clamp_d h a) in *. clearbody b1 a1.
  unfold auto_solve_d. cbn [iv_h iv_dmax iv_before iv_after]. cbn zeta.
  set (sd := mk_side (g_lmin g) (g_smoothness g) []).
  pose proof (di_le d_init_before b1 (p_d b1) before_proportional ltac:(lra)) as [G1 _].
  assert (forall k, update_ls (S k) d_init_before h (g_dmax g) b1 sd = Some sd) as U.
  { intros k. unfold update_ls.
    rewrite (lines_find_ls _ _ _ _ _ (lines_empty (p_d b1) (sd_smoothness sd) (g_dmax g) (h - d_init_before b1 (p_d b1)) ltac:(lra)))
      by (cbn; lia). reflexivity. }
  destruct n as [|k]; [reflexivity|]. rewrite U.
  destruct (update_ls (S k) d_init_after h (g_dmax g) a1 sd) as [sa|]; [|reflexivity].
  rewrite U.
  destruct (update_ls (S k) d_init_after h (g_dmax g) a1 sa) as [sa'|]; [|reflexivity].
  unfold adjust_d. rewrite (adjust_d_loop_hangs _ _ _ _ _ before_proportional); [reflexivity|lra| |reflexivity].
  destruct (qmin_cases (p_d b1) (g_dmax g)) as [[_ ->]|[_ ->]]; lra.
Qed.

(* ------------------------------------------------------------------ *)
(** * Cells on either side of the middle *)

(** Two lines one apart from a policy placed as ONELINE, h between 1 and 2. *)
Lemma two_lines_max d sm dmax s ls : lines d sm dmax s ls -> 1 <= d -> 1 <= dmax -> 1 <= sm -> s < 2 ->
  (length ls <= 2)%nat.
Proof.
  intros R D M S L. unfold lines in R.
  assert (1 <= qmin d dmax) as Q1 by (destruct (qmin_cases d dmax) as [[_ ->]|[_ ->]]; lra).
  pose proof (qmin_le_r d dmax) as Q2. set (c := qmin d dmax) in *. clearbody c.
  pose proof (next_space_ge sm dmax c S ltac:(lra) Q2) as N1.
  pose proof (next_space_le_dmax sm dmax c Q2) as N2.
  set (x := next_space sm dmax c) in *.
  pose proof (next_space_ge sm dmax x S ltac:(lra) N2) as N3.
  inversion R as [|? ? l1 H1 R1]; subst; [cbn; lia|].
  inversion R1 as [|? ? l2 H2 R2]; subst; [cbn; lia|].
  inversion R2 as [|? ? l3 H3 R3]; subst; [cbn; lia|].
  fold x in H3. lra.
Qed.

Lemma two_lines_min d sm dmax s ls : lines d sm dmax s ls -> 0 < d -> 0 < dmax -> 1 <= sm ->
  sm * d < s -> (2 <= length ls)%nat.
Proof.
  intros R D M S L. unfold lines in R.
  pose proof (qmin_pos d dmax D M) as Q1. pose proof (qmin_le_l d dmax) as Q2.
  pose proof (next_space_le_sm sm dmax (qmin d dmax) S Q1) as N1.
  inversion R as [|? ? l1 H1 R1]; subst; [nra|].
  inversion R1 as [|? ? l2 H2 R2]; subst; [nra|]. cbn. lia.
Qed.

Definition at_ (x : Q) (d : Q) : mlp := mk_mlp x ONELINE NNONE true d.

(** The interval is still as the counter-example needs it. *)
Record narrow (sm e : Q) (b a : mlp) (iv : interval) : Prop :=
  { na_b : b = at_ 0 1; na_a : a = at_ (2 * sm + 2 * e) 1;
    na_ready : ready b a iv;
    na_smb : sd_smoothness (iv_before iv) = sm; na_sma : sd_smoothness (iv_after iv) = sm;
    na_lminb : sd_lmin (iv_before iv) = 2%nat; na_lmina : sd_lmin (iv_after iv) = 2%nat;
    na_dmax : sm <= iv_dmax iv }.

Lemma narrow_start sm e : 1 < sm -> 0 < e -> sm + e < 2 ->
  exists iv, make_interval (mk_params 1 sm 2 2) (at_ 0 1) (at_ (2 * sm + 2 * e) 1) = (at_ 0 1, at_ (2 * sm + 2 * e) 1, iv) /\
    narrow sm e (at_ 0 1) (at_ (2 * sm + 2 * e) 1) iv.
Proof.
  intros S1 S0 S2.
  assert (make_interval (mk_params 1 sm 2 2) (at_ 0 1) (at_ (2 * sm + 2 * e) 1) = (at_ 0 1, at_ (2 * sm + 2 * e) 1,
    mk_interval (calc_h 0 (2 * sm + 2 * e)) (coord_mid 0 (2 * sm + 2 * e)) 2 (mk_side 2 sm []) (mk_side 2 sm []))) as E.
  { unfold make_interval. cbn [p_coord at_ g_lmin g_smoothness g_dmax].
    assert (calc_h 0 (2 * sm + 2 * e) == sm + e) as H.
    { unfold calc_h, coord_distance. rewrite Qabs_neg by lra. field. }
    unfold clamp_d. cbn [p_d at_]. destruct (Qltb_spec (calc_h 0 (2 * sm + 2 * e)) 1); [lra|]. reflexivity. }
  eexists. split; [exact E|].
  constructor; try reflexivity; cbn; try lra.
  eapply make_interval_ready; [| | | | |exact E]; cbn; lra.
Qed.

Lemma adj_refl di h dmax p sd : is_ls_valid (sd_ls sd) (qmin (p_d p) dmax) (sd_smoothness sd) dmax (sd_lmin sd) = true ->
  ends (fun n => adjust_d n di h dmax p sd) (qmin (p_d p) dmax).
Proof. intros V. unfold adjust_d. apply (adj_loop di h dmax p sd). now constructor. Qed.

Lemma narrow_solve sm e b a iv : 1 < sm -> 0 < e -> sm + e < 2 -> narrow sm e b a iv ->
  exists iv', ends (fun n => auto_solve_d n b a iv) (b, a, iv') /\ narrow sm e b a iv'.
Proof.
  intros S1 S0 S2 N. destruct N as [-> -> R Nb Na Lb La M].
  pose proof (ready_h _ _ _ R) as H. cbn [p_coord at_] in H.
  assert (iv_h iv == sm + e) as Hh by (rewrite H; field). clear H.
  destruct (auto_solve_d_total _ _ _ R) as (b' & a' & iv' & E & S).
  pose proof (solved_d_ready _ _ _ _ _ _ R S) as R'.
  (* d is left as it is *)
  assert (forall di c lm, di (at_ c 1) 1 = 0 -> proportional di ->
    forall ls, lines 1 sm (iv_dmax iv) (iv_h iv - di (at_ c 1) 1) ls -> lm = 2%nat ->
    is_ls_valid ls (qmin 1 (iv_dmax iv)) sm (iv_dmax iv) lm = true /\
    (length ls = 2)%nat) as V.
  { intros di c lm Z P ls L ->.
    rewrite Z in L. destruct (qmin_cases 1 (iv_dmax iv)) as [[_ ->]|[? _]]; [|lra].
    pose proof (two_lines_max _ _ _ _ _ L ltac:(lra) ltac:(lra) ltac:(lra) ltac:(lra)) as U.
    pose proof (two_lines_min _ _ _ _ _ L ltac:(lra) ltac:(lra) ltac:(lra) ltac:(lra)) as W.
    split; [|lia]. apply (lines_valid _ _ _ _ _ _ L); try lra.
    split; [lra|]. split; [exact W|lra]. }
  assert (exists iv'', ends (fun n => auto_solve_d n (at_ 0 1) (at_ (2 * sm + 2 * e) 1) iv) (at_ 0 1, at_ (2 * sm + 2 * e) 1, iv'')
     /\ sm <= iv_dmax iv'') as (iv2 & E2 & M2).
  { destruct (lines_exist 1 sm (iv_dmax iv) (iv_h iv - d_init_before (at_ 0 1) 1)) as [lb Xb]; try lra.
    destruct (lines_exist 1 sm (iv_dmax iv) (iv_h iv - d_init_after (at_ (2 * sm + 2 * e) 1) 1)) as [la Xa]; try lra.
    set (sb := mk_side 2 sm lb). set (sa := mk_side 2 sm la).
    assert (iv_before iv = mk_side 2 sm (sd_ls (iv_before iv))) as Eb by (destruct (iv_before iv); cbn in *; congruence).
    assert (iv_after iv = mk_side 2 sm (sd_ls (iv_after iv))) as Ea by (destruct (iv_after iv); cbn in *; congruence).
    destruct (V d_init_before 0 2%nat eq_refl before_proportional lb Xb eq_refl) as [Vb Lnb].
    destruct (V d_init_after (2 * sm + 2 * e) 2%nat eq_refl after_proportional la Xa eq_refl) as [Va Lna].
    assert (qmin 1 (iv_dmax iv) = 1) as Q1 by (destruct (qmin_cases 1 (iv_dmax iv)) as [[_ ->]|[? _]]; [reflexivity|lra]).
    eexists. split.
    - unfold auto_solve_d. cbn zeta. rewrite Eb, Ea.
      eapply ends_bind; [exact (update_ls_ends d_init_before _ _ (at_ 0 1) (mk_side 2 sm (sd_ls (iv_before iv))) _ Xb)|].
      eapply ends_bind; [exact (update_ls_ends d_init_after _ _ (at_ (2 * sm + 2 * e) 1) (mk_side 2 sm (sd_ls (iv_after iv))) _ Xa)|].
      eapply ends_bind; [exact (update_ls_ends d_init_before _ _ (at_ 0 1) sb _ Xb)|].
      eapply ends_bind; [exact (update_ls_ends d_init_after _ _ (at_ (2 * sm + 2 * e) 1) sa _ Xa)|].
      eapply ends_bind; [apply (adj_refl d_init_before _ _ (at_ 0 1) sb); exact Vb|].
      cbn [p_d at_]. rewrite Q1.
      eapply ends_bind; [exact (update_ls_ends d_init_before _ _ (at_ 0 1) sb _ Xb)|].
      eapply ends_bind; [apply (adj_refl d_init_after _ _ (at_ (2 * sm + 2 * e) 1) sa); exact Va|].
      cbn [p_d at_]. rewrite Q1.
      eapply ends_bind; [exact (update_ls_ends d_init_after _ _ (at_ (2 * sm + 2 * e) 1) sa _ Xa)|].
      apply ends_ret.
    - cbn [iv_dmax]. unfold find_dmax.
      assert (forall di c l, di (at_ c 1) 1 = 0 -> lines 1 sm (iv_dmax iv) (iv_h iv - di (at_ c 1) 1) l -> length l = 2%nat ->
        sm <= find_dmax_side (mk_side 2 sm l) (iv_dmax iv)) as F.
      { intros di c l Z X LN. destruct l as [|x [|y [|? ?]]]; try discriminate.
        unfold find_dmax_side. cbn [sd_ls rev app sd_smoothness].
        pose proof (lines_nondecreasing _ _ _ _ _ X ltac:(lra) ltac:(lra) ltac:(lra) 0%nat ltac:(cbn; lia)) as K.
        pose proof (lines_closed _ _ _ _ _ X ltac:(lra) ltac:(lra) ltac:(lra) 0%nat ltac:(cbn; lia)) as K0.
        cbn [qpow] in K0. assert (1 * (1 * sm) == sm) as K1 by ring. rewrite K1 in K0.
        rewrite Q.min_l in K0 by lra. unfold space in K, K0. cbn [nth] in K, K0.
        destruct (qmin_cases (iv_dmax iv) (sm * (y - x))) as [[_ ->]|[_ ->]]; nra. }
      pose proof (F d_init_before 0 lb eq_refl Xb Lnb). pose proof (F d_init_after (2 * sm + 2 * e) la eq_refl Xa Lna).
      change (sm <= qmin (find_dmax_side sb (iv_dmax iv)) (find_dmax_side sa (iv_dmax iv))).
      destruct (qmin_cases (find_dmax_side sb (iv_dmax iv)) (find_dmax_side sa (iv_dmax iv))) as [[_ ->]|[_ ->]]; assumption. }
  pose proof (ends_fun _ _ _ E E2) as EQ. injection EQ as -> -> ->.
  exists iv2. split; [exact E2|].
  constructor; try reflexivity; try assumption.
  - rewrite (sd_smb _ _ _ _ _ _ S). exact Nb.
  - rewrite (sd_sma _ _ _ _ _ _ S). exact Na.
  - rewrite (sd_lminb _ _ _ _ _ _ S). exact Lb.
  - rewrite (sd_lmina _ _ _ _ _ _ S). exact La.
Qed.

Lemma narrow_mesh sm e r0 b a iv : 1 < sm -> 0 < e -> sm + e < 2 -> r0 * (sm + e - 1) < 1 -> narrow sm e b a iv ->
  exists iv', ends (fun n => auto_solve_smoothness n b a iv) iv' /\
    ~ smooth r0 (p_coord b :: mesh_interval b a iv' ++ [p_coord a]).
Proof.
  intros S1 S0 S2 S3 N. destruct N as [-> -> R Nb Na Lb La M].
  pose proof (ready_h _ _ _ R) as H. cbn [p_coord at_] in H.
  assert (iv_h iv == sm + e) as Hh by (rewrite H; field). clear H.
  pose proof (ready_m _ _ _ R) as Hm. cbn [p_coord at_] in Hm.
  assert (iv_m iv == sm + e) as Hm' by (rewrite Hm; field). clear Hm.
  destruct (auto_solve_smoothness_total _ _ _ R) as (iv' & E & _).
  exists iv'. split; [exact E|].
  (* what the smoothness becomes *)
  destruct (lines_exist 1 sm (iv_dmax iv) (iv_h iv - d_init_before (at_ 0 1) 1)) as [lb Xb]; try lra.
  destruct (lines_exist 1 sm (iv_dmax iv) (iv_h iv - d_init_after (at_ (2 * sm + 2 * e) 1) 1)) as [la Xa]; try lra.
  assert (iv_before iv = mk_side 2 sm (sd_ls (iv_before iv))) as Eb by (destruct (iv_before iv); cbn in *; congruence).
  assert (iv_after iv = mk_side 2 sm (sd_ls (iv_after iv))) as Ea by (destruct (iv_after iv); cbn in *; congruence).
  set (sb := mk_side 2 sm lb). set (sa := mk_side 2 sm la).
  assert (d_init_before (at_ 0 1) 1 = 0) as Zb by reflexivity.
  destruct (adjust_smoothness_total d_init_before (iv_h iv) (iv_dmax iv) (at_ 0 1) sb) as (r & Er & Gr & Ur & _ & Fr);
    try exact Xb; cbn [p_d at_ sd_smoothness sb]; try lra.
  destruct (adjust_smoothness_total d_init_after (iv_h iv) (iv_dmax iv) (at_ (2 * sm + 2 * e) 1) sa) as (r2 & Er2 & Gr2 & Ur2 & _);
    try exact Xa; cbn [p_d at_ sd_smoothness sa]; try lra.
  cbn [p_d at_] in Fr.
  assert (r == 1) as R1.
  { destruct Fr as [Fr|(l & L1 & L2)]; [exact Fr|exfalso].
    rewrite Zb in L1.
    pose proof (two_lines_max _ _ _ _ _ L1 ltac:(lra) ltac:(lra) (next_smoothness_ge r) ltac:(lra)) as U.
    rewrite Zb in Xb.
    pose proof (two_lines_min _ _ _ _ _ Xb ltac:(lra) ltac:(lra) ltac:(lra) ltac:(lra)) as W.
    cbn [sb sd_ls] in L2. lia. }
  destruct (lines_exist 1 r (iv_dmax iv) (iv_h iv - d_init_before (at_ 0 1) 1)) as [lb' Xb']; try lra.
  destruct (lines_exist 1 r2 (iv_dmax iv) (iv_h iv - d_init_after (at_ (2 * sm + 2 * e) 1) 1)) as [la' Xa']; try lra.
  assert (ends (fun n => auto_solve_smoothness n (at_ 0 1) (at_ (2 * sm + 2 * e) 1) iv)
    (mk_interval (iv_h iv) (iv_m iv) (iv_dmax iv) (mk_side 2 r lb') (mk_side 2 r2 la'))) as E'.
  { unfold auto_solve_smoothness. cbn zeta. rewrite Eb, Ea.
    eapply ends_bind; [exact (update_ls_ends d_init_before _ _ (at_ 0 1) (mk_side 2 sm (sd_ls (iv_before iv))) _ Xb)|].
    eapply ends_bind; [exact (update_ls_ends d_init_after _ _ (at_ (2 * sm + 2 * e) 1) (mk_side 2 sm (sd_ls (iv_after iv))) _ Xa)|].
    eapply ends_bind; [exact Er|]. eapply ends_bind; [exact Er2|].
    eapply ends_bind; [exact (update_ls_ends d_init_before _ _ (at_ 0 1) (set_smoothness sb r) _ Xb')|].
    eapply ends_bind; [exact (update_ls_ends d_init_after _ _ (at_ (2 * sm + 2 * e) 1) (set_smoothness sa r2) _ Xa')|].
    apply ends_ret. }
  rewrite (ends_fun _ _ _ E E'). clear E E'.
  rewrite Zb in Xb'.
  pose proof (two_lines_max _ _ _ _ _ Xb' ltac:(lra) ltac:(lra) ltac:(lra) ltac:(lra)) as U.
  pose proof (two_lines_min _ _ _ _ _ Xb' ltac:(lra) ltac:(lra) ltac:(lra) ltac:(lra)) as W.
  destruct lb' as [|x [|y [|? ?]]]; cbn in U, W; try lia.
  pose proof (lines_closed _ _ _ _ _ Xb' ltac:(lra) ltac:(lra) ltac:(lra) 0%nat ltac:(cbn; lia)) as K0.
  cbn [qpow] in K0. assert (1 * (1 * r) == 1) as K1 by lra. rewrite K1 in K0.
  rewrite Q.min_l in K0 by lra. unfold space in K0. cbn [nth] in K0.
  unfold mesh_interval. cbn [p_policy at_ is_oneline p_coord p_d iv_before iv_after iv_m sd_ls].
  rewrite Zb. cbn [removelast map app].
  intros K. destruct K as (_ & K & _). nra.
Qed.
