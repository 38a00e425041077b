(** Proofs about detecting the intervals of an axis, with doubles. *)
From Coq Require Import List Arith Bool ZArith QArith Qabs Qpower Lia Lqa Setoid Sorting.Sorted Sorting.Permutation.
From Verif Require Import IntervalModel IntervalSpec IntervalProofs InfraModel ManagerModel ManagerSpec ManagerProofs ManagerMeshProofs ManagerMoreProofs.
From Verif Require Import RoundModel RoundSpec RoundProofs RoundLinesProofs RoundSolveProofs RoundMeshProofs RoundCellProofs RoundAxisProofs RoundRunProofs.
Import ListNotations.
Open Scope Q_scope.

Definition r_fresh (g : params) (ax : axis) (s : segment) : Prop :=
  exists b a, policy_at ax (sg_before s) b /\ policy_at ax (sg_after s) a /\
    sg_iv s = snd (r_make_interval double g b a).

Lemma r_make_interval_coord g b a b' a' : p_coord b = p_coord b' -> p_coord a = p_coord a' ->
  snd (r_make_interval double g b a) = snd (r_make_interval double g b' a').
Proof. unfold r_make_interval. cbn [snd]. intros -> ->. reflexivity. Qed.

Lemma r_new_segment_ok g ax b a pb pa : policy_at ax b pb -> policy_at ax a pa -> b <> a ->
  exists ax', r_new_segment double g ax b a = Done ax' /\
    ax_conflicts ax' = ax_conflicts ax /\ ax_lines ax' = ax_lines ax /\
    length (ax_policies ax') = length (ax_policies ax) /\
    exists s, ax_segments ax' = ax_segments ax ++ [s] /\ sg_before s = b /\ sg_after s = a /\
      sg_iv s = snd (r_make_interval double g pb pa) /\
      forall i p, policy_at ax i p -> exists p', policy_at ax' i p' /\ clamped_by [s] i p p'.
Proof.
  intros Pb Pa N. unfold r_new_segment, policy_at in *. unfold read. rewrite Pb, Pa. cbn [bind].
  unfold r_make_interval. set (h := r_h double (p_coord pb) (p_coord pa)). clearbody h.
  destruct (write_spec (clamp_d h pb) (ax_policies ax) b (nth_lt _ _ _ Pb)) as (l1 & W1 & Len1 & H1 & O1).
  rewrite W1. cbn [bind].
  destruct (write_spec (clamp_d h pa) l1 a) as (l2 & W2 & Len2 & H2 & O2).
  { rewrite Len1. eapply nth_lt; eassumption. }
  rewrite W2. cbn [bind]. eexists. split; [reflexivity|].
  cbn [set_segments set_policies ax_conflicts ax_lines ax_policies ax_segments].
  split; [reflexivity|]. split; [reflexivity|]. split; [congruence|].
  eexists. split; [reflexivity|]. cbn [sg_before sg_after sg_iv snd].
  split; [reflexivity|]. split; [reflexivity|]. split; [reflexivity|].
  intros i p P. destruct (Nat.eq_dec i a) as [->|Na]; [|destruct (Nat.eq_dec i b) as [->|Nb]].
  - assert (p = pa) by congruence. subst p. exists (clamp_d h pa). split; [assumption|].
    destruct (clamp_facts h pa) as (S & L & Lh & C). split; [assumption|]. split; [assumption|]. split.
    + intros s [<-|[]] _. cbn. assumption.
    + destruct C as [C|C]; [now left|]. right. eexists. split; [left; reflexivity|]. split; [right; reflexivity|]. cbn. assumption.
  - assert (p = pb) by congruence. subst p. exists (clamp_d h pb). split; [rewrite O2 by assumption; assumption|].
    destruct (clamp_facts h pb) as (S & L & Lh & C). split; [assumption|]. split; [assumption|]. split.
    + intros s [<-|[]] _. cbn. assumption.
    + destruct C as [C|C]; [now left|]. right. eexists. split; [left; reflexivity|]. split; [left; reflexivity|]. cbn. assumption.
  - exists p. split; [rewrite O2, O1 by assumption; assumption|]. split; [apply same_but_d_refl|]. split; [apply Qle_refl|]. split.
    + intros s [<-|[]] [T|T]; cbn in T; congruence.
    + now left.
Qed.

Lemma r_fresh_clamped g ax ax' s new : (forall i p, policy_at ax i p -> exists p', policy_at ax' i p' /\ clamped_by new i p p') ->
  length (ax_policies ax') = length (ax_policies ax) -> r_fresh g ax' s -> r_fresh g ax s.
Proof.
  intros H L (b & a & Pb & Pa & E).
  assert (K : forall i q, policy_at ax' i q -> exists p, policy_at ax i p /\ p_coord p = p_coord q).
  { intros i q P. destruct (nth_error (ax_policies ax) i) as [p|] eqn:X.
    - exists p. split; [exact X|]. destruct (H i p X) as (p' & P' & S & _).
      unfold policy_at in *. assert (p' = q) by congruence. subst. apply S.
    - apply nth_error_None in X. apply nth_lt in P. lia. }
  destruct (K _ _ Pb) as (b0 & Pb0 & Eb). destruct (K _ _ Pa) as (a0 & Pa0 & Ea).
  exists b0, a0. split; [assumption|]. split; [assumption|]. rewrite E. now apply r_make_interval_coord.
Qed.

Lemma r_detect_loop_ok g l : forall ax, NoDup l -> (forall i, In i l -> exists p, policy_at ax i p) ->
  exists ax' new, r_detect_intervals_loop double g ax l = Done ax' /\
    ax_conflicts ax' = ax_conflicts ax /\ ax_lines ax' = ax_lines ax /\
    length (ax_policies ax') = length (ax_policies ax) /\
    ax_segments ax' = ax_segments ax ++ new /\
    map (fun s => (sg_before s, sg_after s)) new = combine l (tl l) /\
    (forall s, In s new -> r_fresh g ax s) /\
    forall i p, policy_at ax i p -> exists p', policy_at ax' i p' /\ clamped_by new i p p'.
Proof.
  assert (Zero : forall ax, exists ax' new, Done ax = Done ax' /\
    ax_conflicts ax' = ax_conflicts ax /\ ax_lines ax' = ax_lines ax /\
    length (ax_policies ax') = length (ax_policies ax) /\
    ax_segments ax' = ax_segments ax ++ new /\
    map (fun s => (sg_before s, sg_after s)) new = [] /\
    (forall s, In s new -> r_fresh g ax s) /\
    forall i p, policy_at ax i p -> exists p', policy_at ax' i p' /\ clamped_by new i p p').
  { intros ax. exists ax, []. rewrite app_nil_r. repeat split; try reflexivity.
    - intros s [].
    - intros i p P. exists p. split; [assumption|]. split; [apply same_but_d_refl|]. split; [apply Qle_refl|].
      split; [intros s []|now left]. }
  induction l as [|b [|a l] IH]; intros ax N P; [apply Zero|apply Zero|].
  destruct (P b) as (pb & Pb); [now left|]. destruct (P a) as (pa & Pa); [right; now left|].
  inversion N as [|? ? Nb N']; subst.
  destruct (r_new_segment_ok g ax b a pb pa Pb Pa) as (ax1 & E1 & C1 & L1 & Len1 & s & S1 & Sb & Sa & Si & K1).
  { intros ->. apply Nb. now left. }
  destruct (IH ax1 N') as (ax' & new & E2 & C2 & L2 & Len2 & S2 & M2 & F2 & K2).
  { intros i I. destruct (P i) as (p & Pi); [now right|]. destruct (K1 i p Pi) as (p' & Pi' & _). now exists p'. }
  exists ax', (s :: new).
  change (r_detect_intervals_loop double g ax (b :: a :: l)) with (let! ax := r_new_segment double g ax b a in r_detect_intervals_loop double g ax (a :: l)).
  rewrite E1. cbn [bind]. rewrite E2.
  split; [reflexivity|]. split; [congruence|]. split; [congruence|]. split; [congruence|].
  split; [rewrite S2, S1, <- app_assoc; reflexivity|].
  split; [cbn [map tl combine]; rewrite Sb, Sa; f_equal; exact M2|]. split.
  - intros t [<-|I].
    + exists pb, pa. rewrite Sb, Sa. now repeat split.
    + eapply r_fresh_clamped; [exact K1|exact Len1|]. now apply F2.
  - intros i p Pi. destruct (K1 i p Pi) as (p1 & P1 & Cl1). destruct (K2 i p1 P1) as (p2 & P2 & Cl2).
    exists p2. split; [assumption|]. eapply clamped_trans; eassumption.
Qed.

Lemma r_detect_intervals_ok g srt ax : sorts srt ->
  exists ax' new l, r_detect_intervals double g srt ax = Done ax' /\ in_order ax l /\
    ax_conflicts ax' = ax_conflicts ax /\ ax_lines ax' = ax_lines ax /\
    length (ax_policies ax') = length (ax_policies ax) /\
    ax_segments ax' = ax_segments ax ++ new /\
    map (fun s => (sg_before s, sg_after s)) new = combine l (tl l) /\
    (forall s, In s new -> r_fresh g ax s) /\
    forall i p, policy_at ax i p -> exists p', policy_at ax' i p' /\ clamped_by new i p p'.
Proof.
  intros S. pose proof (dimension_in_order srt ax S) as O.
  destruct (r_detect_loop_ok g (map fst (dimension srt ax)) ax) as (ax' & new & H).
  - apply O.
  - intros i I. apply O in I. destruct I as (p & E). exists p. apply E.
  - exists ax', new, (map fst (dimension srt ax)). destruct H as (E & H). split; [exact E|]. split; [assumption|]. exact H.
Qed.

Lemma neighbours_tile ax l i j p q : in_order ax l -> distinct ax -> enabled_at ax i p -> enabled_at ax j q -> p_coord p < p_coord q ->
  (forall k r, enabled_at ax k r -> p_coord r <= p_coord p \/ p_coord q <= p_coord r) -> In (i, j) (combine l (tl l)).
Proof.
  intros (Nd & Me & O) Di [Pi Ei] [Pj Ej] L N.
  assert (Ii : In i l) by (apply Me; exists p; now split). assert (Ij : In j l) by (apply Me; exists q; now split).
  apply In_nth_error in Ii, Ij. destruct Ii as (k & K), Ij as (m & Km).
  assert (k < m)%nat.
  { destruct (lt_eq_lt_dec k m) as [[H|H]|H]; [assumption| |].
    - subst m. assert (i = j) by congruence. subst j. unfold policy_at in *. assert (p = q) by congruence. subst q. lra.
    - pose proof (O m k j i q p H Km K Pj Pi). lra. }
  assert (m = S k).
  { destruct (Nat.eq_dec m (S k)) as [E|E]; [assumption|exfalso].
    assert (Lm : (m < length l)%nat) by (apply nth_error_Some; congruence).
    destruct (nth_error l (S k)) as [h|] eqn:Kh; [|apply nth_error_None in Kh; lia].
    destruct (proj1 (Me h) (nth_error_In _ _ Kh)) as (r & Pr & Er).
    pose proof (O k (S k) i h p r ltac:(lia) K Kh Pi Pr). pose proof (O (S k) m h j r q ltac:(lia) Kh Km Pr Pj).
    assert (h <> i) by (intros ->; assert (k = S k) by (apply (proj1 (NoDup_nth_error l) Nd); [apply nth_error_Some; congruence|congruence]); lia).
    assert (h <> j) by (intros ->; assert (m = S k) by (apply (proj1 (NoDup_nth_error l) Nd); [apply nth_error_Some; congruence|congruence]); lia).
    pose proof (Di h i r p ltac:(assumption) (conj Pr Er) (conj Pi Ei)).
    pose proof (Di h j r q ltac:(assumption) (conj Pr Er) (conj Pj Ej)).
    destruct (N h r (conj Pr Er)); [apply H2|apply H3]; lra. }
  subst m. clear - K Km. revert l K Km. induction k as [|k IH]; intros [|x l] K Km; try discriminate.
  - cbn in K, Km |- *. destruct l as [|y l]; [discriminate|]. injection K as ->. injection Km as ->. now left.
  - destruct l as [|y l]; [destruct k; discriminate|]. right. apply (IH (y :: l)); assumption.
Qed.

Section Tame.
Variables M lo D : Q.
Variable g : params.
Variable zs : list zone.
Variable ax : axis.
Hypothesis T : tame M lo D g zs ax.
Let rho := rounding (4 * M).

Lemma tame_lo : 0 < lo. Proof. pose proof (ta_low _ _ _ _ _ _ T). assert (0 < 2 ^ (-990)) by reflexivity. lra. Qed.
Lemma tame_size : rho <= (1 # 64) * lo. Proof. pose proof (ta_rounding _ _ _ _ _ _ T). unfold rho. lra. Qed.
Lemma tame_high : 4 * M <= limit. Proof. pose proof (ta_high _ _ _ _ _ _ T). unfold limit. lra. Qed.

Lemma wide_pos k : 128 <= 2 ^ (Z.of_nat k + 7).
Proof.
  assert (1 <= 2 ^ Z.of_nat k).
  { induction k as [|k IH]; [discriminate|]. rewrite Nat2Z.inj_succ. unfold Z.succ. rewrite Qpower_plus by discriminate.
    change (2 ^ 1) with 2. lra. }
  rewrite Qpower_plus by discriminate. change (2 ^ 7) with 128. lra.
Qed.

Lemma tame_distinct : distinct ax.
Proof.
  intros i j p q N Pi Pj E. pose proof (ta_apart _ _ _ _ _ _ T i j p q N Pi Pj) as G. pose proof (wide_pos (g_lmin g)). pose proof tame_lo.
  assert (Z : Qabs (p_coord p - p_coord q) == 0) by (rewrite E; setoid_replace (p_coord q - p_coord q) with 0 by ring; reflexivity).
  rewrite Z in G. nra.
Qed.

(** The interval between two policies. *)
Lemma tame_placed i j b a iv : enabled_at ax i b -> enabled_at ax j a -> p_coord b < p_coord a -> iv = snd (r_make_interval double g b a) ->
  placed M lo b a iv /\ lo <= (1 # 2) * (iv_h iv * 2 ^ (- (Z.of_nat (g_lmin g) + 4))).
Proof.
  intros Pb Pa L E. pose proof (ta_policies _ _ _ _ _ _ T i b Pb) as (B1 & B2 & _). pose proof (ta_policies _ _ _ _ _ _ T j a Pa) as (A1 & A2 & _).
  assert (N : i <> j) by (intros <-; destruct Pb as [Pb _], Pa as [Pa _]; unfold policy_at in *; assert (a = b) by congruence; subst; lra).
  pose proof (ta_apart _ _ _ _ _ _ T i j b a N Pb Pa) as G. rewrite Qabs_neg in G by lra. pose proof (wide_pos (g_lmin g)) as W. pose proof tame_lo as P.
  assert (G' : 128 * lo <= p_coord a - p_coord b) by nra.
  assert (Pl : placed M lo b a iv) by (constructor; try assumption; try lra; rewrite E; reflexivity). split; [exact Pl|].
  assert (Low : 2 ^ (-1000) <= lo). { pose proof (ta_low _ _ _ _ _ _ T). assert (2 ^ (-1000) <= 2 ^ (-990)) by (vm_compute; discriminate). lra. }
  pose proof (h_near M lo tame_size Low b a iv Pl) as H. fold rho in H. pose proof tame_size as Si.
  set (w := 2 ^ (Z.of_nat (g_lmin g) + 4)) in *.
  assert (Ew : 2 ^ (Z.of_nat (g_lmin g) + 7) == 8 * w). { unfold w. rewrite !Qpower_plus by discriminate. change (2 ^ 7) with 128. change (2 ^ 4) with 16. ring. }
  rewrite Ew in G, W. rewrite Qpower_opp. fold w. set (v := / w).
  assert (Ev : v * w == 1) by (unfold v; field; lra). assert (Pv : 0 < v) by (apply Qinv_lt_0_compat; lra). clearbody v w.
  assert (K : 2 * (w * lo) <= iv_h iv) by nra.
  assert (2 * lo <= iv_h iv * v). { setoid_replace (2 * lo) with (2 * (w * lo) * v) by (setoid_replace (2 * (w * lo) * v) with (2 * lo * (v * w)) by ring; rewrite Ev; ring). nra. }
  lra.
Qed.

Lemma tame_dmeshable srt : sorts srt -> ax_segments ax = [] -> ax_lines ax = [] ->
  exists ax' l, r_detect_intervals double g srt ax = Done ax' /\ in_order ax l /\ dmeshable M lo D ax' l /\
    same_policies ax ax' /\ ax_conflicts ax' = ax_conflicts ax.
Proof.
  intros S E0 L0. pose proof tame_distinct as Di. pose proof tame_lo as Plo. pose proof tame_size as Si.
  destruct (r_detect_intervals_ok g srt ax S) as (ax' & new & l & E & O & Cs & Ls & Len & Ss & Ti & F & K).
  rewrite E0 in Ss. cbn in Ss. subst new.
  assert (Sp : same_policies ax ax').
  { apply same_of_at; [assumption|]. intros i p P. destruct (K i p P) as (p' & P' & Cl). exists p'. split; [assumption|apply Cl]. }
  assert (Low : 2 ^ (-1000) <= lo). { pose proof (ta_low _ _ _ _ _ _ T). assert (2 ^ (-1000) <= 2 ^ (-990)) by (vm_compute; discriminate). lra. }
  assert (En : forall i p', enabled_at ax' i p' -> exists p, enabled_at ax i p /\ same_but_d p p').
  { intros i p' [P' X]. destruct (same_at _ _ _ _ Sp P') as (p & P & Q). exists p. split; [|exact Q]. split; [exact P|]. destruct Q as (_ & _ & _ & Q). congruence. }
  assert (Seg : forall s, In s (ax_segments ax') -> exists b a, enabled_at ax (sg_before s) b /\ enabled_at ax (sg_after s) a /\
    sg_iv s = snd (r_make_interval double g b a) /\ placed M lo b a (sg_iv s) /\ lo <= (1 # 2) * (iv_h (sg_iv s) * 2 ^ (- (Z.of_nat (g_lmin g) + 4)))).
  { intros s I. destruct (F s I) as (b & a & Pb & Pa & Ei).
    assert (J : In (sg_before s, sg_after s) (combine l (tl l))) by (rewrite <- Ti; apply in_map_iff; now exists s).
    pose proof (tile_strict ax l s b a O Di J Pb Pa) as Lt. destruct (combine_tl_nth _ _ _ J) as (j & N1 & N2).
    apply nth_error_In in N1, N2. apply O in N1, N2. destruct N1 as (b1 & Pb1 & Eb1), N2 as (a1 & Pa1 & Ea1). unfold policy_at in *.
    assert (b1 = b) by congruence. assert (a1 = a) by congruence. subst b1 a1.
    assert (Xb : enabled_at ax (sg_before s) b) by now split. assert (Xa : enabled_at ax (sg_after s) a) by now split.
    exists b, a. split; [exact Xb|]. split; [exact Xa|]. split; [exact Ei|]. exact (tame_placed _ _ b a (sg_iv s) Xb Xa Lt Ei). }
  exists ax', l. split; [exact E|]. split; [exact O|]. split; [|split; [exact Sp|exact Cs]].
  constructor.
  - eapply in_order_same; eassumption.
  - exact Ti.
  - intros s b' a' I Pb' Pa'. destruct (Seg s I) as (b & a & Pb & Pa & Ei & Pl & Wide).
    destruct (K _ _ (proj1 Pb)) as (b1 & Pb1 & Clb). destruct (K _ _ (proj1 Pa)) as (a1 & Pa1 & Cla).
    unfold policy_at in *. assert (b1 = b') by congruence. assert (a1 = a') by congruence. subst b1 a1.
    destruct Clb as ((Cb & Polb & Nb & _) & _ & Hb & Db), Cla as ((Ca & Pola & Na & _) & _ & Ha & Da).
    pose proof (Hb s I (or_introl eq_refl)) as Lb. pose proof (Ha s I (or_intror eq_refl)) as La.
    assert (Ds : forall i p p', enabled_at ax i p -> (p_d p' = p_d p \/ exists s, In s (ax_segments ax') /\ touches s i /\ p_d p' = iv_h (sg_iv s)) -> is_double (p_d p') /\ lo <= p_d p').
    { intros i p p' Pp [H|(s1 & I1 & _ & H)].
      - rewrite H. pose proof (ta_policies _ _ _ _ _ _ T i p Pp) as (_ & _ & X1 & X2 & _). now split.
      - rewrite H. destruct (Seg s1 I1) as (b2 & a2 & _ & _ & _ & Pl2 & _). split; [exact (h_double M lo _ _ _ Pl2)|].
        pose proof (h_range M lo Si Low _ _ _ Pl2). lra. }
    pose proof (Ds _ _ _ Pb Db) as (Xb1 & Xb2). pose proof (Ds _ _ _ Pa Da) as (Xa1 & Xa2).
    pose proof (ta_policies _ _ _ _ _ _ T _ _ Pb) as (_ & _ & _ & _ & Cob). pose proof (ta_policies _ _ _ _ _ _ T _ _ Pa) as (_ & _ & _ & _ & Coa).
    pose proof (ta_dmax _ _ _ _ _ _ T) as (Dm1 & Dm2). pose proof (ta_smoothness _ _ _ _ _ _ T) as Sm.
    assert (Ed : iv_dmax (sg_iv s) = g_dmax g) by (rewrite Ei; reflexivity).
    assert (Eb : iv_before (sg_iv s) = mk_side (g_lmin g) (g_smoothness g) []) by (rewrite Ei; reflexivity).
    assert (Ea : iv_after (sg_iv s) = mk_side (g_lmin g) (g_smoothness g) []) by (rewrite Ei; reflexivity).
    constructor; rewrite ?Ed, ?Eb, ?Ea; cbn [sd_smoothness sd_lmin]; try assumption; try (split; [assumption|lra]).
    + destruct Pl as [Q1 Q2 Q3 Q4 Q5 Q6 Q7]. constructor; rewrite <- ?Cb, <- ?Ca; assumption.
    + unfold directed. rewrite <- Polb, <- Nb. apply Cob.
    + unfold directed. rewrite <- Pola, <- Na. apply Coa.
  - intros i p' P'. destruct (En i p' P') as (p & P & (_ & Q1 & Q2 & _)). pose proof (ta_policies _ _ _ _ _ _ T i p P) as (_ & _ & _ & _ & C).
    unfold consistent in *. rewrite <- Q1, <- Q2. exact C.
  - intros i p' P'. destruct (En i p' P') as (p & P & (Q1 & _)). pose proof (ta_policies _ _ _ _ _ _ T i p P) as (X1 & X2 & _).
    unfold in_place. rewrite <- Q1. now split.
  - now rewrite Ls.
Qed.
End Tame.

Lemma dmeshable_zones M lo D l zs : Forall (fun z => is_double (z_dmax z) /\ lo <= z_dmax z <= D) zs -> forall ax, dmeshable M lo D ax l -> dmeshable M lo D (apply_zones zs ax) l.
Proof.
  induction 1 as [|z zs Z _ IH]; intros ax Me; [destruct ax; exact Me|]. rewrite apply_zones_cons. apply IH.
  destruct Me as [O Ti R C P L]. constructor; try assumption.
  - cbn. rewrite map_map, <- Ti. apply map_ext. intros s. destruct (apply_zone_same z s) as (-> & -> & _). reflexivity.
  - cbn. intros s b a I Pb Pa. apply in_map_iff in I. destruct I as (s0 & <- & I).
    destruct (apply_zone_same z s0) as (Eb & Ea & Ei). rewrite Eb in Pb. rewrite Ea in Pa.
    pose proof (R s0 b a I Pb Pa) as Rd. destruct Ei as [->| ->]; [assumption|]. destruct Rd as [Pl]. constructor; cbn; try assumption.
    destruct Pl. now constructor.
Qed.
Lemma apply_zones_rest zs : forall ax, ax_policies (apply_zones zs ax) = ax_policies ax /\ ax_conflicts (apply_zones zs ax) = ax_conflicts ax.
Proof. intros ax. now split. Qed.

Lemma tame_axis M lo D g zs ax srt : tame M lo D g zs ax -> sorts srt -> ax_segments ax = [] -> ax_lines ax = [] ->
  exists ax1 ax2, r_detect_intervals double g srt ax = Done ax1 /\ finishes (fun n => r_mesh_axis double n srt (apply_zones zs ax1)) ax2 /\
    StronglySorted Qle (ax_lines ax2) /\ within (D + 9 * rounding (4 * M)) (ax_lines ax2) /\
    (forall i p, enabled_at ax i p -> p_policy p = ONELINE -> In (p_coord p) (ax_lines ax2)) /\
    (forall x, In x (ax_lines ax2) -> exists i p j q, enabled_at ax i p /\ enabled_at ax j q /\ p_coord p <= x <= p_coord q) /\
    (forall p q, neighbours ax p q -> exists c, dcell M D p q c /\ placed M lo p q (snd (r_make_interval double g p q)) /\ forall x, In x c -> In x (ax_lines ax2)) /\
    Forall2 same_but_d (ax_policies ax) (ax_policies ax2) /\ ax_conflicts ax2 = ax_conflicts ax.
Proof.
  intros T S E0 L0. destruct (tame_dmeshable M lo D g zs ax T srt S E0 L0) as (ax1 & l & E & O & Me & Sp & Cs).
  pose proof (dmeshable_zones M lo D l zs (ta_zones _ _ _ _ _ _ T) ax1 Me) as Mz.
  pose proof (tame_lo _ _ _ _ _ _ T) as Plo. pose proof (ta_dmax _ _ _ _ _ _ T) as (_ & Dm). pose proof (ta_D _ _ _ _ _ _ T) as DM.
  destruct (r_mesh_axis_ends M lo D (tame_size _ _ _ _ _ _ T) (ta_low _ _ _ _ _ _ T) (tame_high _ _ _ _ _ _ T) DM srt (apply_zones zs ax1) l S ltac:(lra) ltac:(lra) Mz)
    as (ax2 & Fin & Sorted & Within & One & Btw & Cells & Same & Confl).
  assert (En : forall i p, enabled_at ax1 i p -> exists p0, enabled_at ax i p0 /\ same_but_d p0 p).
  { intros i p' [P' X]. destruct (same_at _ _ _ _ Sp P') as (p & P & Q). exists p. split; [|exact Q]. split; [exact P|]. destruct Q as (_ & _ & _ & Q). congruence. }
  exists ax1, ax2. split; [exact E|]. split; [exact Fin|]. split; [exact Sorted|]. split; [exact Within|]. split; [|split; [|split; [|split]]].
  - intros i p [P X] Op. destruct (same_at_l _ _ _ _ Sp P) as (p' & P' & (C & Po & _ & Q)). rewrite C. apply (One i); [|congruence]. split; [exact P'|congruence].
  - intros x X. destruct (Btw x X) as (i & p & j & q & Pi & Pj & L). destruct (En i p Pi) as (p0 & P0 & (C0 & _)). destruct (En j q Pj) as (q0 & Q0 & (C1 & _)).
    exists i, p0, j, q0. split; [exact P0|]. split; [exact Q0|]. rewrite C0, C1. exact L.
  - intros p q (i & j & Pi & Pj & L & N). pose proof (neighbours_tile ax l i j p q O (tame_distinct _ _ _ _ _ _ T) Pi Pj L N) as I.
    rewrite <- (dm_tiles _ _ _ _ _ Mz) in I. apply in_map_iff in I. destruct I as (s & Es & Is). injection Es as Eb Ea.
    destruct (same_at_l _ _ _ _ Sp (proj1 Pi)) as (p' & Pi' & Qp). destruct (same_at_l _ _ _ _ Sp (proj1 Pj)) as (q' & Pj' & Qq).
    destruct (Cells s p' q' Is) as (c & Ce & Sub); [rewrite Eb; exact Pi'|rewrite Ea; exact Pj'|].
    exists c. split; [|split; [|exact Sub]].
    + eapply dcell_same; [exact Qp|exact Qq|exact Ce].
    + exact (proj1 (tame_placed M lo D g zs ax T i j p q _ Pi Pj L eq_refl)).
  - eapply forall2_trans; [apply same_but_d_trans|exact Sp|exact Same].
  - rewrite Confl. exact Cs.
Qed.
