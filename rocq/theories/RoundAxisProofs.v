(** Proofs about the meshing of an axis, with doubles. *)
From Coq Require Import List Arith Bool ZArith QArith Qabs Lia Lqa Setoid Sorting.Sorted Sorting.Permutation.
From Verif Require Import IntervalModel IntervalSpec IntervalProofs InfraModel ManagerModel ManagerSpec ManagerProofs ManagerMeshProofs ManagerMoreProofs.
From Verif Require Import RoundModel RoundSpec RoundProofs RoundLinesProofs RoundSolveProofs RoundMeshProofs RoundCellProofs.
Import ListNotations.
Open Scope Q_scope.

Lemma consistent_directed p : consistent p -> directed p. Proof. exact (fun C => proj1 C). Qed.

Section Axis.
Variables M lo D : Q.
Let rho := rounding (4 * M).
Hypothesis Size : rho <= (1 # 64) * lo.
Hypothesis Low : 2 ^ (-990) <= lo.
Hypothesis High : 4 * M <= limit.
Hypothesis DM : D <= M.

Lemma low_1000 : 2 ^ (-1000) <= (1 # 64) * lo.
Proof. assert (2 ^ (-1000) <= (1 # 64) * 2 ^ (-990)) by (vm_compute; discriminate). lra. Qed.
Lemma low_lo : 2 ^ (-1000) <= lo. Proof. pose proof low_1000. assert (0 < 2 ^ (-1000)) by reflexivity. lra. Qed.
Lemma lo_pos' : 0 < lo. Proof. pose proof low_lo. assert (0 < 2 ^ (-1000)) by reflexivity. lra. Qed.

(** ** The intervals *)

Record fit (l : Q) (b a : mlp) (iv : interval) : Prop :=
  { fi_placed : placed M lo b a iv;
    fi_dmax : is_double (iv_dmax iv) /\ l <= iv_dmax iv <= D;
    fi_b : is_double (p_d b) /\ l <= p_d b <= iv_h iv; fi_a : is_double (p_d a) /\ l <= p_d a <= iv_h iv;
    fi_dir_b : directed b; fi_dir_a : directed a;
    fi_smb : 1 <= sd_smoothness (iv_before iv) <= 2; fi_sma : 1 <= sd_smoothness (iv_after iv) <= 2;
    fi_lmin_b : lo <= (1 # 2) * (iv_h iv * 2 ^ (- (Z.of_nat (sd_lmin (iv_before iv)) + 4)));
    fi_lmin_a : lo <= (1 # 2) * (iv_h iv * 2 ^ (- (Z.of_nat (sd_lmin (iv_after iv)) + 4))) }.

Lemma fit_big l b a iv : fit l b a iv -> iv_h iv + iv_dmax iv <= 4 * M /\ rounding (iv_h iv + iv_dmax iv) <= rho /\ 0 < M.
Proof.
  intros F. pose proof (fi_placed _ _ _ _ F) as Pl. pose proof (h_range M lo Size low_lo _ _ _ Pl) as H. pose proof (M_positive M lo low_lo _ _ _ Pl) as PM.
  pose proof (pl_ba _ _ _ _ _ Pl). pose proof (pl_b _ _ _ _ _ Pl). pose proof (pl_a _ _ _ _ _ Pl). pose proof lo_pos'.
  destruct (fi_dmax _ _ _ _ F). fold rho in H. assert (iv_h iv + iv_dmax iv <= 4 * M) by lra. split; [assumption|]. split; [apply rounding_mono; assumption|assumption].
Qed.
Lemma fit_sized l b a iv : fit l b a iv -> (1 # 4) * lo <= l <= lo -> sized l b a iv.
Proof.
  intros F L. destruct (fit_big l b a iv F) as (B1 & B2 & _). pose proof low_1000. pose proof lo_pos'.
  pose proof (h_double M lo _ _ _ (fi_placed _ _ _ _ F)) as Dh. destruct F as [Pl [D1 D2] [E1 E2] [F1 F2] Tb Ta Sb Sa Lb La].
  constructor; try assumption; lra.
Qed.

Record smaller (l : Q) (p p' : mlp) : Prop :=
  { sl_same : same_but_d p p';
    sl_d : p_d p' = p_d p \/ is_double (p_d p') /\ l <= p_d p' <= p_d p }.
Lemma smaller_refl l p : smaller l p p. Proof. split; [apply same_but_d_refl|now left]. Qed.
Lemma smaller_trans l p q r : smaller l p q -> smaller l q r -> smaller l p r.
Proof.
  intros [S1 D1] [S2 D2]. split; [eapply same_but_d_trans; eassumption|]. destruct D2 as [D2|[D2 L2]].
  - rewrite D2. exact D1.
  - right. split; [exact D2|]. destruct D1 as [D1|[_ L1]]; [rewrite <- D1; exact L2|lra].
Qed.
Lemma smaller_weaken l l' p q : l' <= l -> smaller l p q -> smaller l' p q.
Proof. intros L [S [E|[E1 E2]]]; split; try assumption; [now left|right; split; [assumption|lra]]. Qed.

Lemma same_init p p' d : same_but_d p p' -> r_d_init_before double p d = r_d_init_before double p' d /\ r_d_init_after double p d = r_d_init_after double p' d.
Proof. intros (_ & P & N & _). unfold r_d_init_before, r_d_init_after. now rewrite P, N. Qed.
Lemma same_directed p p' : same_but_d p p' -> directed p -> directed p'.
Proof. intros (_ & P & N & _) H. unfold directed. rewrite <- P, <- N. exact H. Qed.

Lemma fit_smaller l b a iv b' a' : smaller l b b' -> smaller l a a' -> fit l b a iv -> fit l b' a' iv.
Proof.
  intros [Sb Lb] [Sa La] [Pl Dm Fb Fa Tb Ta Mb Ma Nb Na].
  constructor; try assumption.
  - destruct Pl as [A1 A2 A3 A4 A5 A6 A7]. destruct Sb as (Cb & _), Sa as (Ca & _). rewrite Cb in *. rewrite Ca in *. now constructor.
  - destruct Lb as [->|[K1 K2]]; [exact Fb|]. split; [exact K1|]. lra.
  - destruct La as [->|[K1 K2]]; [exact Fa|]. split; [exact K1|]. lra.
  - now apply (same_directed b).
  - now apply (same_directed a).
Qed.

(** The interval at [i] fits. *)
Definition fits (l : Q) (ax : axis) (i : nat) : Prop :=
  exists s b a, nth_error (ax_segments ax) i = Some s /\ policy_at ax (sg_before s) b /\ policy_at ax (sg_after s) a /\ fit l b a (sg_iv s).

(** ** Visits *)

Record segment_as (s s' : segment) : Prop :=
  { sa_before : sg_before s' = sg_before s; sa_after : sg_after s' = sg_after s; sa_dmax : iv_dmax (sg_iv s') <= iv_dmax (sg_iv s) }.
Lemma segment_as_refl s : segment_as s s. Proof. split; [reflexivity|reflexivity|lra]. Qed.
Lemma segment_as_trans s t u : segment_as s t -> segment_as t u -> segment_as s u.
Proof. intros [A B C] [A' B' C']. split; [congruence|congruence|lra]. Qed.

Record visited (l : Q) (ax ax' : axis) : Prop :=
  { vi_policies : Forall2 (smaller l) (ax_policies ax) (ax_policies ax');
    vi_segments : Forall2 segment_as (ax_segments ax) (ax_segments ax');
    vi_conflicts : ax_conflicts ax' = ax_conflicts ax;
    vi_lines : ax_lines ax' = ax_lines ax }.
Lemma visited_refl l ax : visited l ax ax.
Proof. split; try reflexivity; apply forall2_refl; [apply smaller_refl|apply segment_as_refl]. Qed.
Lemma visited_trans l a b c : visited l a b -> visited l b c -> visited l a c.
Proof.
  intros [A1 A2 A3 A4] [B1 B2 B3 B4]. split; try congruence.
  - eapply forall2_trans; [apply smaller_trans|eassumption|eassumption].
  - eapply forall2_trans; [apply segment_as_trans|eassumption|eassumption].
Qed.
Lemma visited_weaken l l' ax ax' : l' <= l -> visited l ax ax' -> visited l' ax ax'.
Proof. intros L [A1 A2 A3 A4]. split; try assumption. eapply forall2_impl; [|exact A1]. intros p q. now apply smaller_weaken. Qed.

Lemma fits_visited l ax ax' i : visited l ax ax' -> nth_error (ax_segments ax') i = nth_error (ax_segments ax) i -> fits l ax i -> fits l ax' i.
Proof.
  intros V E (s & b & a & Es & Pb & Pa & F). unfold policy_at in *.
  destruct (forall2_nth _ _ _ _ _ (vi_policies _ _ _ V) Pb) as (b' & Pb' & Lb). destruct (forall2_nth _ _ _ _ _ (vi_policies _ _ _ V) Pa) as (a' & Pa' & La).
  exists s, b', a'. split; [congruence|]. split; [exact Pb'|]. split; [exact Pa'|]. now apply (fit_smaller l b a).
Qed.

Lemma solved_smaller_b l b a iv b' a' iv' : solved l b a iv b' a' iv' -> smaller l b b'.
Proof. intros So. destruct (so_db _ _ _ _ _ _ _ So) as (A & B & _). split; [rewrite (so_b _ _ _ _ _ _ _ So); repeat split|]. right. now split. Qed.
Lemma solved_smaller_a l b a iv b' a' iv' : solved l b a iv b' a' iv' -> smaller l a a'.
Proof. intros So. destruct (so_da _ _ _ _ _ _ _ So) as (A & B & _). split; [rewrite (so_a _ _ _ _ _ _ _ So); repeat split|]. right. now split. Qed.

Lemma fit_solved l b a iv b' a' iv' : 0 <= l -> fit l b a iv -> solved l b a iv b' a' iv' -> fit ((1 # 4) * l) b' a' iv'.
Proof.
  intros Pl0 F So. pose proof (fit_smaller l b a iv b' a' (solved_smaller_b _ _ _ _ _ _ _ So) (solved_smaller_a _ _ _ _ _ _ _ So) F) as [Pl Dm Fb Fa Tb Ta Mb Ma Nb Na].
  destruct So as [_ _ Db Da Hh Hm Hd Sb Sa Lb La _ _ _ _].
  constructor; rewrite ?Hh, ?Sb, ?Sa, ?Lb, ?La; try assumption.
  - destruct Pl as [A1 A2 A3 A4 A5 A6 A7]. constructor; try assumption; congruence.
  - split; [apply Hd|]. lra.
  - split; [apply Fb|]. lra.
  - split; [apply Fa|]. lra.
Qed.

Lemma visit_d l ax i s b a : (1 # 4) * lo <= l <= lo -> nth_error (ax_segments ax) i = Some s -> policy_at ax (sg_before s) b -> policy_at ax (sg_after s) a ->
  fit l b a (sg_iv s) ->
  exists ax' b' a' iv', finishes (fun n => r_auto_solve_d_at double n ax i) ax' /\ visited l ax ax' /\
    nth_error (ax_segments ax') i = Some (mk_segment (sg_before s) (sg_after s) iv') /\
    (forall j, j <> i -> nth_error (ax_segments ax') j = nth_error (ax_segments ax) j) /\
    policy_at ax' (sg_before s) b' /\ policy_at ax' (sg_after s) a' /\ solved l b a (sg_iv s) b' a' iv'.
Proof.
  intros L Es Pb Pa F. destruct (solve_d_ends l b a (sg_iv s) (fit_sized _ _ _ _ F L)) as (b' & a' & iv' & E & So).
  assert (N : sg_before s <> sg_after s).
  { intros X. unfold policy_at in *. rewrite X in Pb. assert (b = a) by congruence. subst. pose proof (pl_ba _ _ _ _ _ (fi_placed _ _ _ _ F)). pose proof lo_pos'. lra. }
  unfold policy_at in *.
  destruct (write_spec b' (ax_policies ax) (sg_before s) (nth_lt _ _ _ Pb)) as (l1 & W1 & Len1 & H1 & O1).
  destruct (write_spec a' l1 (sg_after s)) as (l2 & W2 & Len2 & H2 & O2).
  { rewrite Len1. eapply nth_lt; eassumption. }
  destruct (write_spec (mk_segment (sg_before s) (sg_after s) iv') (ax_segments ax) i (nth_lt _ _ _ Es)) as (ss & W3 & Len3 & H3 & O3).
  exists (set_segments (set_policies ax l2) ss), b', a', iv'. split; [|split].
  - unfold r_auto_solve_d_at, read. rewrite Es. cbn [bind]. rewrite Pb, Pa. cbn [bind].
    eapply (finishes_bind (fun n => lift (r_auto_solve_d double n b a (sg_iv s)))); [apply finishes_lift; exact E|].
    cbn. rewrite W1. cbn [bind]. rewrite W2. cbn [bind]. rewrite W3. cbn [bind]. apply finishes_ret.
  - split; try reflexivity; cbn [set_segments set_policies ax_policies ax_segments].
    + assert (Pa1 : nth_error l1 (sg_after s) = Some a) by (rewrite O1; auto).
      eapply forall2_trans; [apply smaller_trans| |].
      * eapply forall2_write; [apply smaller_refl|exact Pb|exact W1|]. eapply solved_smaller_b; eassumption.
      * eapply forall2_write; [apply smaller_refl|exact Pa1|exact W2|]. eapply solved_smaller_a; eassumption.
    + eapply forall2_write; [apply segment_as_refl|exact Es|exact W3|]. split; [reflexivity|reflexivity|]. cbn. apply (so_dmax _ _ _ _ _ _ _ So).
  - cbn [set_segments set_policies ax_policies ax_segments]. split; [exact H3|]. split; [exact O3|]. split; [rewrite O2; assumption|]. split; [exact H2|exact So].
Qed.

Lemma visit_s l ax i s b a : (1 # 16) * lo <= l -> nth_error (ax_segments ax) i = Some s -> policy_at ax (sg_before s) b -> policy_at ax (sg_after s) a ->
  fit l b a (sg_iv s) ->
  exists ax' iv', finishes (fun n => r_auto_solve_smoothness_at double n ax i) ax' /\ visited l ax ax' /\
    nth_error (ax_segments ax') i = Some (mk_segment (sg_before s) (sg_after s) iv') /\
    (forall j, j <> i -> nth_error (ax_segments ax') j = nth_error (ax_segments ax) j) /\
    policy_at ax' (sg_before s) b /\ policy_at ax' (sg_after s) a /\ smoothed b a (sg_iv s) iv'.
Proof.
  intros L Es Pb Pa F. destruct (fit_big _ _ _ _ F) as (B1 & B2 & _). pose proof low_1000. pose proof lo_pos'.
  pose proof (h_double M lo _ _ _ (fi_placed _ _ _ _ F)) as Dh.
  destruct (solve_smoothness_ends l b a (sg_iv s) Dh (proj1 (fi_dmax _ _ _ _ F)) (proj1 (fi_b _ _ _ _ F)) (proj1 (fi_a _ _ _ _ F)) (fi_smb _ _ _ _ F) (fi_sma _ _ _ _ F) ltac:(lra))
    as (iv' & E & So).
  { apply (fi_dmax _ _ _ _ F). } { apply (fi_b _ _ _ _ F). } { apply (fi_a _ _ _ _ F). } { lra. }
  destruct (write_spec (mk_segment (sg_before s) (sg_after s) iv') (ax_segments ax) i (nth_lt _ _ _ Es)) as (ss & W3 & Len3 & H3 & O3).
  exists (set_segments ax ss), iv'. unfold policy_at in *. split; [|split].
  - unfold r_auto_solve_smoothness_at, read. rewrite Es. cbn [bind]. rewrite Pb, Pa. cbn [bind].
    eapply (finishes_bind (fun n => lift (r_auto_solve_smoothness double n b a (sg_iv s)))); [apply finishes_lift; exact E|].
    cbn. rewrite W3. cbn [bind]. apply finishes_ret.
  - split; try reflexivity; cbn [set_segments ax_policies ax_segments]; [apply forall2_refl, smaller_refl|].
    eapply forall2_write; [apply segment_as_refl|exact Es|exact W3|]. split; [reflexivity|reflexivity|]. cbn. rewrite (sm_dmax _ _ _ _ So). lra.
  - cbn [set_segments ax_policies ax_segments]. split; [exact H3|]. split; [exact O3|]. split; [exact Pb|]. split; [exact Pa|exact So].
Qed.

(** ** The lines of an interval *)

Lemma dcell_same b a b' a' c : same_but_d b b' -> same_but_d a a' -> dcell M D b' a' c -> dcell M D b a c.
Proof.
  intros Sb Sa [C B Mi H F La]. pose proof Sb as (Cb & Pb & _). pose proof Sa as (Ca & Pa & _).
  split; rewrite ?Cb, ?Ca, ?Pb, ?Pa; try assumption.
  - intros O. destruct (F O) as (d & r & E & K). exists d, r. destruct (same_init _ _ d Sb) as [-> _]. now split.
  - intros O. destruct (La O) as (d & r & E & K). exists d, r. destruct (same_init _ _ d Sa) as [_ ->]. now split.
Qed.

Lemma cell_of l b a iv b' a' iv1 iv2 : (1 # 4) * lo <= l <= lo -> fit l b a iv -> solved l b a iv b' a' iv1 -> smoothed b' a' iv1 iv2 ->
  dcell M D b a (r_mesh_interval double b' a' iv2).
Proof.
  intros L F So Ss. pose proof low_1000 as Lw. pose proof lo_pos' as Pl.
  pose proof (fit_solved l b a iv b' a' iv1 ltac:(lra) F So) as F1.
  apply (dcell_same b a b' a').
  { rewrite (so_b _ _ _ _ _ _ _ So). repeat split. } { rewrite (so_a _ _ _ _ _ _ _ So). repeat split. }
  pose proof (fi_dmax _ _ _ _ F) as Fm.
  destruct F1 as [P1 [Dm1 Lm1] [Db1 Lb1] [Da1 La1] Tb Ta Mb Ma _ _]. destruct Ss as [Hh Hm Hd Sb Sa Lib Lia]. destruct So as [_ _ Dbs Das _ _ _ _ _ _ _ _ _ _ _].
  apply (mesh_dcell M lo Size low_lo).
  - destruct P1 as [A1 A2 A3 A4 A5 A6 A7]. constructor; try assumption; congruence.
  - constructor; rewrite ?Hd, ?Hh; try assumption; try lra; rewrite <- Hd, <- Hh in *; try assumption; try lra; try tauto.
Qed.

(** ** The passes *)

Lemma first_pass_ends order : forall ax, NoDup order -> (forall i, In i order -> fits lo ax i) ->
  exists ax', finishes (fun n => r_first_pass double n ax order) ax' /\ visited lo ax ax' /\
    (forall i, In i order -> fits ((1 # 4) * lo) ax' i) /\ (forall j, ~ In j order -> nth_error (ax_segments ax') j = nth_error (ax_segments ax) j).
Proof.
  pose proof lo_pos' as Plo. induction order as [|i r IH]; intros ax N H.
  - exists ax. split; [apply finishes_ret|]. split; [apply visited_refl|]. split; [intros i []|reflexivity].
  - inversion N as [|? ? Ni N']; subst. destruct (H i (or_introl eq_refl)) as (s & b & a & Es & Pb & Pa & F).
    destruct (visit_d lo ax i s b a ltac:(lra) Es Pb Pa F) as (ax1 & b1 & a1 & iv1 & F1 & V1 & Es1 & O1 & Pb1 & Pa1 & So).
    destruct (IH ax1 N') as (ax' & F' & V' & K' & O').
    { intros j J. apply (fits_visited lo ax ax1 j V1); [|apply H; now right]. apply O1. intros ->. contradiction. }
    exists ax'. split; [exact (finishes_bind (fun n => r_auto_solve_d_at double n ax i) (fun n ax => r_first_pass double n ax r) _ _ F1 F')|].
    split; [eapply visited_trans; eassumption|]. split.
    + intros j [<-|J]; [|now apply K']. apply (fits_visited _ ax1 ax' i); [apply (visited_weaken lo); [lra|assumption]|now apply O'|].
      exists (mk_segment (sg_before s) (sg_after s) iv1), b1, a1. split; [exact Es1|]. split; [exact Pb1|]. split; [exact Pa1|]. cbn. apply (fit_solved lo b a (sg_iv s)); [lra|assumption|assumption].
    + intros j J. rewrite O' by (intros X; apply J; now right). apply O1. intros ->. apply J. now left.
Qed.

Definition dcell_at (ax : axis) (i : nat) (c : list Q) : Prop :=
  exists s b a, nth_error (ax_segments ax) i = Some s /\ policy_at ax (sg_before s) b /\ policy_at ax (sg_after s) a /\ dcell M D b a c.
Lemma dcell_at_visited l ax ax' i c : visited l ax ax' -> dcell_at ax' i c -> dcell_at ax i c.
Proof.
  intros V (s' & b' & a' & Es & Pb & Pa & C).
  destruct (forall2_nth_r _ _ _ _ _ (vi_segments _ _ _ V) Es) as (s & E & Su).
  destruct (forall2_nth_r _ _ _ _ _ (vi_policies _ _ _ V) Pb) as (b & Eb & Lb).
  destruct (forall2_nth_r _ _ _ _ _ (vi_policies _ _ _ V) Pa) as (a & Ea & La).
  exists s, b, a. unfold policy_at. rewrite <- (sa_before _ _ Su), <- (sa_after _ _ Su). split; [assumption|]. split; [assumption|]. split; [assumption|].
  eapply dcell_same; [apply Lb|apply La|exact C].
Qed.

Lemma second_pass_ends order : forall ax, NoDup order -> (forall i, In i order -> fits ((1 # 4) * lo) ax i) ->
  exists ax' lines, finishes (fun n => r_second_pass double n ax order) (ax', lines) /\ visited ((1 # 16) * lo) ax ax' /\ Forall2 (dcell_at ax) order lines.
Proof.
  pose proof lo_pos' as Plo. induction order as [|i r IH]; intros ax N H.
  - exists ax, []. split; [apply finishes_ret|]. split; [apply visited_refl|constructor].
  - inversion N as [|? ? Ni N']; subst. destruct (H i (or_introl eq_refl)) as (s & b & a & Es & Pb & Pa & F).
    destruct (visit_d ((1 # 4) * lo) ax i s b a ltac:(lra) Es Pb Pa F) as (ax1 & b1 & a1 & iv1 & F1 & V1 & Es1 & O1 & Pb1 & Pa1 & So).
    assert (Fs : fit ((1 # 4) * ((1 # 4) * lo)) b1 a1 iv1) by (apply (fit_solved _ b a (sg_iv s)); [lra|assumption|assumption]).
    destruct (visit_s ((1 # 4) * ((1 # 4) * lo)) ax1 i _ b1 a1 ltac:(lra) Es1 Pb1 Pa1 Fs) as (ax2 & iv2 & F2 & V2 & Es2 & O2 & Pb2 & Pa2 & Ss). cbn [sg_before sg_after sg_iv] in *.
    assert (V2p : forall l, visited l ax1 ax2).
    { intros l. destruct V2 as [P2 S2 C2 L2]. split; try assumption.
      assert (E : ax_policies ax2 = ax_policies ax1).
      { destruct F2 as (n & F2). specialize (F2 n (le_n n)). unfold r_auto_solve_smoothness_at, read in F2. rewrite Es1 in F2. cbn [bind sg_before sg_after sg_iv] in F2.
        unfold policy_at in Pb1, Pa1. rewrite Pb1, Pa1 in F2. cbn [bind] in F2.
        destruct (r_auto_solve_smoothness double n b1 a1 iv1); [|discriminate]. cbn [lift bind] in F2.
        destruct (write (ax_segments ax1) i _); [|discriminate|discriminate]. cbn [bind] in F2. inversion F2; subst. reflexivity. }
      rewrite E. apply forall2_refl, smaller_refl. }
    destruct (IH ax2 N') as (ax' & lines & F' & V' & C').
    { intros j J. assert (j <> i) by (intros ->; contradiction).
      apply (fits_visited _ ax1 ax2 j (V2p _)); [now apply O2|]. apply (fits_visited _ ax ax1 j V1); [now apply O1|]. apply H. now right. }
    assert (V02 : visited ((1 # 16) * lo) ax ax2).
    { eapply visited_trans; [eapply visited_weaken; [|exact V1]; lra|apply V2p]. }
    exists ax', (r_mesh_interval double b1 a1 iv2 :: lines). split; [|split].
    + refine (finishes_bind (fun n => r_auto_solve_d_at double n ax i) (fun n ax => _) _ _ F1 _).
      refine (finishes_bind (fun n => r_auto_solve_smoothness_at double n ax1 i) (fun n ax => _) _ _ F2 _).
      unfold r_mesh_segment, read. rewrite Es2. cbn [bind sg_before sg_after sg_iv]. unfold policy_at in Pb2, Pa2. rewrite Pb2, Pa2. cbn [bind].
      refine (finishes_bind (fun n => r_second_pass double n ax2 r) (fun n x => let (ax, rest) := x in Done (ax, r_mesh_interval double b1 a1 iv2 :: rest)) _ _ F' _).
      apply finishes_ret.
    + eapply visited_trans; eassumption.
    + constructor.
      * exists s, b, a. split; [assumption|]. split; [assumption|]. split; [assumption|]. apply (cell_of ((1 # 4) * lo) b a (sg_iv s) b1 a1 iv1 iv2); try assumption. lra.
      * eapply forall2_impl; [|exact C']. intros j c. eapply dcell_at_visited. eassumption.
Qed.
End Axis.
