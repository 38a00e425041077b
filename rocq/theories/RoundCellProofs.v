(** Proofs about the lines of an interval, with doubles. *)
From Coq Require Import List Arith Bool ZArith QArith Qabs Lia Lqa Setoid Sorting.Sorted Sorting.Permutation.
From Verif Require Import IntervalModel IntervalSpec IntervalProofs InfraModel RoundModel RoundSpec RoundProofs RoundLinesProofs RoundSolveProofs RoundMeshProofs.
Import ListNotations.
Open Scope Q_scope.

(** ** Chains *)

(** Consecutive elements are at most [x] from each other, up or down. *)
Fixpoint chain (x : Q) (l : list Q) : Prop :=
  match l with
  | a :: (b :: _) as r => (b - a <= x /\ a - b <= x) /\ chain x r
  | _ => True
  end.

Lemma chain_app x l1 a l2 : chain x (l1 ++ [a]) -> chain x (a :: l2) -> chain x (l1 ++ a :: l2).
Proof.
  induction l1 as [|b l1 IH]; [intros _ H; exact H|]. intros H1 H2. destruct l1 as [|c l1].
  - destruct H1 as [H1 _]. split; [exact H1|exact H2].
  - destruct H1 as [H1 H3]. split; [exact H1|]. apply IH; [exact H3|exact H2].
Qed.
Lemma chain_weaken x y l : x <= y -> chain x l -> chain y l.
Proof. intros H. induction l as [|a [|b l] IH]; intros W; [exact I|exact I|]. destruct W as [W1 W2]. split; [lra|]. apply IH, W2. Qed.
Lemma chain_snoc x l a b : chain x (l ++ [a]) -> b - a <= x -> a - b <= x -> chain x (l ++ [a; b]).
Proof. intros H A B. apply (chain_app x l a [b] H). split; [now split|exact I]. Qed.
Lemma chain_rev x l : chain x l -> chain x (rev l).
Proof.
  induction l as [|a l IH]; [intros _; exact I|]. intros H. cbn [rev]. destruct l as [|b l]; [exact I|]. destruct H as [[H1 H2] H3].
  specialize (IH H3). cbn [rev] in *. rewrite <- app_assoc. apply chain_snoc; [exact IH|lra|lra].
Qed.
Lemma chain_opp x l : chain x (map Qopp l) -> chain x l.
Proof.
  induction l as [|a [|b l] IH]; intros H; [exact I|exact I|]. destruct H as [[H1 H2] H3]. split; [lra|]. apply IH, H3.
Qed.
Lemma chain_head x a b l : a == b -> chain x (a :: l) -> chain x (b :: l).
Proof. intros E. destruct l as [|c l]; [intros _; exact I|]. intros [[H1 H2] H3]. split; [lra|exact H3]. Qed.
Lemma chain_left x u v : chain x (u ++ v) -> chain x u.
Proof. induction u as [|a [|b u] IH]; intros W; [exact I|exact I|]. destruct W as [H W]. split; [exact H|]. apply IH. exact W. Qed.
Lemma chain_right x u v : chain x (u ++ v) -> chain x v.
Proof. induction u as [|a u IH]; intros W; [exact W|]. apply IH. cbn in W. destruct (u ++ v); [exact I|apply W]. Qed.

(** A chain cannot jump over a gap, so neither has gaps once sorted. *)
Lemma chain_side x a b l : a + x < b -> chain x l -> (forall y, In y l -> y <= a \/ b <= y) ->
  (forall y, In y l -> y <= a) \/ (forall y, In y l -> b <= y).
Proof.
  intros G. induction l as [|z l IH]; intros C S; [left; intros y []|].
  destruct l as [|w l].
  - destruct (S z (or_introl eq_refl)); [left|right]; intros y [<-|[]]; assumption.
  - destruct C as [[C1 C2] C3]. destruct (S z (or_introl eq_refl)) as [Z|Z]; (destruct IH as [K|K]; [exact C3|intros y Y; apply S; now right| |]); pose proof (K w (or_introl eq_refl)).
    + left. intros y [<-|Y]; [exact Z|now apply K].
    + lra.
    + lra.
    + right. intros y [<-|Y]; [exact Z|now apply K].
Qed.
Lemma sorted_app_lt u a b v : StronglySorted Qle (u ++ a :: b :: v) -> forall y, In y (u ++ a :: b :: v) -> y <= a \/ b <= y.
Proof.
  induction u as [|z u IH]; intros S y Y.
  - apply StronglySorted_inv in S. destruct S as [S _]. apply StronglySorted_inv in S. destruct S as [_ F]. rewrite Forall_forall in F.
    destruct Y as [<-|[<-|Y]]; [left; apply Qle_refl|right; apply Qle_refl|right; now apply F].
  - cbn in S, Y. apply StronglySorted_inv in S. destruct S as [S F]. rewrite Forall_forall in F. destruct Y as [<-|Y]; [|now apply IH].
    left. apply F, in_app_iff. right. now left.
Qed.
Lemma chain_sorted x l l' : 0 <= x -> chain x l -> Permutation l l' -> StronglySorted Qle l' -> within x l'.
Proof.
  intros X C P S. assert (K : forall v u, l' = u ++ v -> within x v).
  { induction v as [|a [|b v] IH]; intros u E; [exact I|exact I|]. split.
    - destruct (Qlt_le_dec (a + x) b) as [G|G]; [exfalso|lra].
      pose proof (Permutation_sym P) as P'.
      destruct (chain_side x a b l G C) as [K|K].
      + intros y Y. apply (Permutation_in _ P) in Y. rewrite E in Y, S. now apply (sorted_app_lt u a b v).
      + assert (b <= a); [|lra]. apply K. apply (Permutation_in _ P'). rewrite E. apply in_app_iff. right. right. now left.
      + assert (b <= a); [|lra]. apply K. apply (Permutation_in _ P'). rewrite E. apply in_app_iff. right. now left.
    - apply (IH (u ++ [a])). now rewrite <- app_assoc. }
  now apply (K l' []).
Qed.

(** ** Half an interval *)

Section Half.
Variables c0 m s dmax rho k : Q.
Variable f : Q -> Q.
Hypothesis Prho : 0 <= rho.
Hypothesis Pdmax : 0 <= dmax.
Hypothesis Pk : 0 <= k.
Hypothesis Near : forall x, 0 <= x -> x < s -> c0 + x - rho <= f x <= c0 + x + rho.
Hypothesis Mid : c0 + s - k <= m <= c0 + s + k.

Lemma half_chain_from ls : forall x0 y0, 0 <= x0 < s -> c0 + x0 - rho <= y0 <= c0 + x0 + rho ->
  ascending (x0 :: ls) -> within (dmax + rho) (x0 :: ls) -> just_covers s ls ->
  chain (dmax + 3 * rho + k) (y0 :: map f (removelast ls) ++ [m]).
Proof.
  induction ls as [|x1 ls IH]; intros x0 y0 X Y A W (N & L & F); [congruence|].
  destruct A as [A1 A2]. destruct W as [W1 W2]. destruct ls as [|x2 ls].
  - cbn in *. split; [|exact I]. lra.
  - change (removelast (x1 :: x2 :: ls)) with (x1 :: removelast (x2 :: ls)) in F |- *. inversion F as [|? ? F1 F2]; subst.
    pose proof (Near x1 ltac:(lra) F1) as N1. cbn [map app]. split; [lra|].
    apply (IH x1 (f x1)); [lra|exact N1|exact A2|exact W2|]. split; [discriminate|]. split; [exact L|exact F2].
Qed.
Lemma half_chain y0 ls : 0 < s -> y0 == c0 -> ascending (0 :: ls) -> within (dmax + rho) (0 :: ls) -> just_covers s ls ->
  chain (dmax + 3 * rho + k) (y0 :: map f (removelast ls) ++ [m]).
Proof. intros P E A W J. apply (half_chain_from ls 0 y0); [lra|lra|exact A|exact W|exact J]. Qed.

Lemma half_upper ls : just_covers s ls -> ascending (0 :: ls) -> forall y, In y (map f (removelast ls)) -> c0 - rho <= y <= m + rho + k.
Proof.
  intros (N & L & F) A y Y. apply in_map_iff in Y. destruct Y as (x & <- & X). rewrite Forall_forall in F. pose proof (F x X) as Xs.
  assert (P : 0 <= x).
  { assert (X' : In x ls). { clear -X. induction ls as [|z [|w ls] IH]; [destruct X|destruct X|]. destruct X as [<-|X]; [now left|right; now apply IH]. }
    clear -A X'. assert (G : forall l a, ascending (a :: l) -> forall x, In x l -> a <= x).
    { induction l as [|b l IH]; intros a A0 z Z; [destruct Z|]. destruct A0 as [A1 A2]. destruct Z as [<-|Z]; [exact A1|]. apply Qle_trans with b; [exact A1|now apply IH]. }
    now apply (G ls 0). }
  pose proof (Near x P Xs). lra.
Qed.
End Half.

Lemma ascending_map f l : (forall x y, x <= y -> f x <= f y) -> ascending l -> ascending (map f l).
Proof. intros M. induction l as [|a [|b l] IH]; intros A; [exact I|exact I|]. destruct A as [A1 A2]. split; [now apply M|now apply IH]. Qed.
Lemma ascending_removelast l : ascending l -> ascending (removelast l).
Proof.
  induction l as [|a [|b l] IH]; intros A; [exact I|exact I|]. destruct A as [A1 A2]. specialize (IH A2). destruct l as [|c l]; [exact I|].
  split; [exact A1|exact IH].
Qed.
Lemma ascending_app_last l a b : ascending (l ++ [a]) -> a <= b -> ascending (l ++ [a; b]).
Proof.
  induction l as [|x l IH]; intros A L; [split; [exact L|exact I]|]. cbn [app] in *. destruct l as [|y l]; [destruct A as [A _]; split; [exact A|split; [exact L|exact I]]|].
  destruct A as [A1 A2]. split; [exact A1|]. now apply IH.
Qed.
Lemma ascending_rev_anti f l : (forall x y, x <= y -> f y <= f x) -> ascending l -> ascending (rev (map f l)).
Proof.
  intros M. induction l as [|a l IH]; intros A; [exact I|]. cbn [map rev]. destruct l as [|b l]; [exact I|]. destruct A as [A1 A2].
  specialize (IH A2). cbn [map rev] in *. rewrite <- app_assoc. apply ascending_app_last; [exact IH|now apply M].
Qed.

(** ** The interval *)

Section Cell.
Variables M lo : Q.
Let rho := rounding (4 * M).
Hypothesis Size : rho <= (1 # 64) * lo.
Hypothesis Low : 2 ^ (-1000) <= lo.

Lemma double_close x : - (4 * M) <= x <= 4 * M -> x - rho <= double x <= x + rho.
Proof.
  intros X. destruct (Qlt_le_dec x 0) as [N|P].
  - pose proof (double_near (- x) (4 * M) ltac:(lra) ltac:(lra)) as D. rewrite double_opp in D. fold rho in D. lra.
  - apply double_near; lra.
Qed.

(** The place of the interval and the sizes it is meshed with. *)
Record placed (b a : mlp) (iv : interval) : Prop :=
  { pl_cb : is_double (p_coord b); pl_ca : is_double (p_coord a);
    pl_b : - M <= p_coord b; pl_ba : p_coord b + 64 * lo <= p_coord a; pl_a : p_coord a <= M;
    pl_h : iv_h iv = r_h double (p_coord b) (p_coord a);
    pl_m : iv_m iv = r_mid double (p_coord b) (p_coord a) }.

Lemma lo_positive : 0 < lo. Proof. assert (0 < 2 ^ (-1000)) by reflexivity. lra. Qed.
Lemma M_positive b a iv : placed b a iv -> 0 < M.
Proof. intros [_ _ B BA A _ _]. pose proof lo_positive. lra. Qed.
Lemma rho_positive : 0 < M -> 0 < rho. Proof. intros P. apply rounding_pos. lra. Qed.
Lemma rho_M : 0 < M -> lo <= M -> rho <= (1 # 64) * M. Proof. lra. Qed.

Lemma h_near b a iv : placed b a iv -> (1 # 2) * (p_coord a - p_coord b) - 2 * rho <= iv_h iv <= (1 # 2) * (p_coord a - p_coord b) + 2 * rho.
Proof.
  intros Pl. pose proof (M_positive _ _ _ Pl) as PM. pose proof (rho_positive PM). destruct Pl as [_ _ B BA A Eh _]. pose proof lo_positive. rewrite Eh. unfold r_h.
  set (cb := p_coord b) in *. set (ca := p_coord a) in *. clearbody cb ca.
  pose proof (double_close (cb - ca) ltac:(lra)) as D1. set (z := double (cb - ca)) in *. clearbody z.
  assert (Z : Qabs z == - z) by (apply Qabs_neg; lra). set (w := Qabs z) in *. clearbody w.
  assert (E : w / 2 == (1 # 2) * w) by field. pose proof (double_close (w / 2) ltac:(lra)) as D2. lra.
Qed.
Lemma m_near b a iv : placed b a iv -> (1 # 2) * (p_coord a + p_coord b) - 2 * rho <= iv_m iv <= (1 # 2) * (p_coord a + p_coord b) + 2 * rho.
Proof.
  intros Pl. pose proof (M_positive _ _ _ Pl) as PM. pose proof (rho_positive PM). destruct Pl as [_ _ B BA A _ Em]. pose proof lo_positive. rewrite Em. unfold r_mid.
  set (cb := p_coord b) in *. set (ca := p_coord a) in *. clearbody cb ca.
  pose proof (double_close (cb + ca) ltac:(lra)) as D1. set (z := double (cb + ca)) in *. clearbody z.
  assert (E : z / 2 == (1 # 2) * z) by field. pose proof (double_close (z / 2) ltac:(lra)) as D2. lra.
Qed.
Lemma h_double b a iv : placed b a iv -> is_double (iv_h iv).
Proof. intros Pl. rewrite (pl_h _ _ _ Pl). apply double_is_double. Qed.
Lemma h_range b a iv : placed b a iv -> 31 * lo <= iv_h iv <= M + 2 * rho.
Proof. intros Pl. pose proof (h_near _ _ _ Pl). pose proof (M_positive _ _ _ Pl). destruct Pl as [_ _ B BA A _ _]. lra. Qed.

(** What is used of the lines on one side. *)
Lemma done_spec di h dmax p sd : inits di -> near_inits di -> directed p -> is_double h -> is_double dmax -> is_double (p_d p) -> 0 < dmax -> 2 ^ (-1000) <= p_d p <= h ->
  h + dmax <= 4 * M -> 1 <= sd_smoothness sd -> side_done di h dmax p sd ->
  let s := double (h - di p (p_d p)) in 0 < s /\ s <= h /\ ascending (0 :: sd_ls sd) /\ within (dmax + rho) (0 :: sd_ls sd) /\ just_covers s (sd_ls sd).
Proof.
  intros Di Ni Dp Dh Dm Dd Pm Pd Big Sm R s. assert (P2 : 0 < 2 ^ (-1000)) by reflexivity.
  pose proof (far_middle di h p (p_d p) Di Ni Dp Dd ltac:(lra) ltac:(lra)) as F. fold s in F.
  assert (Sh : s <= h). { apply double_le; [exact Dh|]. destruct (proj1 Di p (p_d p) (p_d p) Dd Dd ltac:(lra)). lra. }
  unfold side_done in R. fold s in R.
  destruct (drun_spec (sd_smoothness sd) dmax s Sm (qmin (p_d p) dmax) 0 (sd_ls sd) R is_double_0 ltac:(lra)) as (A & _ & W & _ & J).
  { pose proof (qmin_pos (p_d p) dmax ltac:(lra) Pm). split; [lra|apply qmin_le_r]. }
  split; [lra|]. split; [exact Sh|]. split; [exact A|]. split; [|apply J; lra].
  clear -W Big Sh. set (l := 0 :: sd_ls sd) in *. clearbody l.
  assert (rounding (s + dmax) <= rho) by (apply rounding_mono; lra).
  induction l as [|x [|y l] IH]; [exact I|exact I|]. destruct W as [W1 W2]. split; [lra|]. now apply IH.
Qed.

(** [c] are lines for an interval between [b] and [a] with spaces of at most [D]. *)
Record dcell (D : Q) (b a : mlp) (c : list Q) : Prop :=
  { dc_chain : chain (D + 9 * rho) ((if is_oneline (p_policy b) then [p_coord b] else []) ++ c ++ (if is_oneline (p_policy a) then [p_coord a] else []));
    dc_between : forall x, In x c -> p_coord b <= x <= p_coord a;
    dc_middle : In (r_mid double (p_coord b) (p_coord a)) c;
    dc_halves : exists l1 m l2, c = l1 ++ m :: l2 /\ ascending l1 /\ ascending l2 /\ (forall x, In x l1 -> x <= m + 7 * rho) /\ (forall x, In x l2 -> m - 7 * rho <= x);
    dc_first : is_oneline (p_policy b) = false -> exists d r, c = double (p_coord b + r_d_init_before double b d) :: r /\ is_double d /\ 0 < d <= D;
    dc_last : is_oneline (p_policy a) = false -> exists d r, c = r ++ [double (p_coord a - r_d_init_after double a d)] /\ is_double d /\ 0 < d <= D }.

(** The sizes an interval is meshed with. *)
Record measured (D : Q) (b a : mlp) (iv : interval) : Prop :=
  { ms_dmax : is_double (iv_dmax iv); ms_dmax_pos : 0 < iv_dmax iv; ms_dmax_D : iv_dmax iv <= D; ms_M : D <= M;
    ms_db : is_double (p_d b); ms_da : is_double (p_d a);
    ms_b : 2 ^ (-1000) <= p_d b <= iv_h iv; ms_bD : p_d b <= D;
    ms_a : 2 ^ (-1000) <= p_d a <= iv_h iv; ms_aD : p_d a <= D;
    ms_dir_b : directed b; ms_dir_a : directed a;
    ms_smb : 1 <= sd_smoothness (iv_before iv); ms_sma : 1 <= sd_smoothness (iv_after iv);
    ms_lines_b : side_done (r_d_init_before double) (iv_h iv) (iv_dmax iv) b (iv_before iv);
    ms_lines_a : side_done (r_d_init_after double) (iv_h iv) (iv_dmax iv) a (iv_after iv) }.

Lemma oneline_init_before p d : is_oneline (p_policy p) = true -> r_d_init_before double p d = 0.
Proof. unfold r_d_init_before. destruct (p_policy p); [reflexivity|discriminate|discriminate]. Qed.
Lemma oneline_init_after p d : is_oneline (p_policy p) = true -> r_d_init_after double p d = 0.
Proof. unfold r_d_init_after. destruct (p_policy p); [reflexivity|discriminate|discriminate]. Qed.

Lemma mesh_dcell D b a iv : placed b a iv -> measured D b a iv -> dcell D b a (r_mesh_interval double b a iv).
Proof.
  intros Pl Ms. pose proof (M_positive _ _ _ Pl) as PM. pose proof (rho_positive PM) as Pr. pose proof lo_positive as Plo.
  pose proof (h_near _ _ _ Pl) as H. pose proof (h_range _ _ _ Pl) as Hr. pose proof (m_near _ _ _ Pl) as Hm. pose proof (h_double _ _ _ Pl) as Dh.
  destruct Pl as [Cb Ca B BA A _ Em]. destruct Ms as [Dm Pm DD DM Db Da [Lb Hb] bD [La Ha] aD Tb Ta Sb Sa Rb Ra].
  set (cb := p_coord b) in *. set (ca := p_coord a) in *. set (h := iv_h iv) in *. set (dmax := iv_dmax iv) in *. set (m := iv_m iv) in *.
  assert (P2 : 0 < 2 ^ (-1000)) by reflexivity.
  destruct (done_spec _ h dmax b (iv_before iv) inits_before near_before Tb Dh Dm Db Pm ltac:(lra) ltac:(lra) Sb Rb) as (Ps1 & Sh1 & As1 & Wi1 & J1).
  destruct (done_spec _ h dmax a (iv_after iv) inits_after near_after Ta Dh Dm Da Pm ltac:(lra) ltac:(lra) Sa Ra) as (Ps2 & Sh2 & As2 & Wi2 & J2).
  destruct (proj1 inits_before b (p_d b) (p_d b) Db Db ltac:(lra)) as (I1 & I2 & _). pose proof (near_before b (p_d b) Tb Lb) as I3.
  destruct (proj1 inits_after a (p_d a) (p_d a) Da Da ltac:(lra)) as (I4 & I5 & _). pose proof (near_after a (p_d a) Ta La) as I6.
  set (db := r_d_init_before double b (p_d b)) in *. set (da := r_d_init_after double a (p_d a)) in *.
  pose proof (double_close (h - db) ltac:(lra)) as E1. pose proof (double_close (h - da) ltac:(lra)) as E2.
  set (s1 := double (h - db)) in *. set (s2 := double (h - da)) in *.
  pose proof (double_close (cb + db) ltac:(lra)) as E3. pose proof (double_close (ca - da) ltac:(lra)) as E4.
  set (c0 := double (cb + db)) in *. set (c1 := double (ca - da)) in *.
  set (ls1 := sd_ls (iv_before iv)) in *. set (ls2 := sd_ls (iv_after iv)) in *.
  set (f1 := fun x => double (c0 + x)). set (g2 := fun x => double (c1 - x)). set (f2 := fun x => - g2 x).
  assert (N1 : forall x, 0 <= x -> x < s1 -> c0 + x - rho <= f1 x <= c0 + x + rho) by (intros x X Y; apply double_close; lra).
  assert (N2 : forall x, 0 <= x -> x < s2 -> - c1 + x - rho <= f2 x <= - c1 + x + rho)
    by (intros x X Y; unfold f2, g2; pose proof (double_close (c1 - x) ltac:(lra)); lra).
  assert (M1 : c0 + s1 - 6 * rho <= m <= c0 + s1 + 6 * rho) by lra.
  assert (M2 : - c1 + s2 - 6 * rho <= - m <= - c1 + s2 + 6 * rho) by lra.
  assert (Mono1 : forall x y, x <= y -> f1 x <= f1 y) by (intros x y L; apply double_mono; lra).
  assert (Mono2 : forall x y, x <= y -> g2 y <= g2 x) by (intros x y L; apply double_mono; lra).
  pose proof (half_upper c0 m s1 rho (6 * rho) f1 N1 M1 ls1 J1 As1) as U1.
  pose proof (half_upper (- c1) (- m) s2 rho (6 * rho) f2 N2 M2 ls2 J2 As2) as U2.
  assert (G0 : cb <= c0) by (apply double_ge; [exact Cb|lra]). assert (G1 : c1 <= ca) by (apply double_le; [exact Ca|lra]).
  assert (D0 : is_double c0) by apply double_is_double. assert (D1 : is_double c1) by apply double_is_double.
  assert (Pos : forall ls s, just_covers s ls -> ascending (0 :: ls) -> forall x, In x (removelast ls) -> 0 <= x).
  { intros ls s _ As x X. apply ascending_removelast in As. destruct ls as [|z ls]; [destruct X|].
    change (removelast (0 :: z :: ls)) with (0 :: removelast (z :: ls)) in As. clear -As X. revert As. generalize 0. induction (removelast (z :: ls)) as [|w l IH]; intros q As; [destruct X|].
    destruct As as [A1 A2]. destruct X as [<-|X]; [exact A1|]. apply Qle_trans with w; [exact A1|]. now apply IH. }
  assert (L1 : forall y, In y (map f1 (removelast ls1)) -> c0 <= y).
  { intros y Y. apply in_map_iff in Y. destruct Y as (x & <- & X). apply double_ge; [exact D0|]. pose proof (Pos _ _ J1 As1 x X). lra. }
  assert (L2 : forall y, In y (map g2 (removelast ls2)) -> y <= c1).
  { intros y Y. apply in_map_iff in Y. destruct Y as (x & <- & X). apply double_le; [exact D1|]. pose proof (Pos _ _ J2 As2 x X). lra. }
  assert (U2' : forall y, In y (map g2 (removelast ls2)) -> m - 7 * rho <= y).
  { intros y Y. assert (Z : In (- y) (map f2 (removelast ls2))).
    { apply in_map_iff in Y. destruct Y as (x & <- & X). apply in_map_iff. now exists x. }
    specialize (U2 _ Z). lra. }
  assert (Ch1 : forall y0, y0 == c0 -> chain (D + 9 * rho) (y0 :: map f1 (removelast ls1) ++ [m])).
  { intros y0 Y. apply chain_weaken with (dmax + 3 * rho + 6 * rho); [lra|]. apply (half_chain c0 m s1 dmax rho (6 * rho) f1); try assumption; lra. }
  assert (Ch2 : forall y1, y1 == c1 -> chain (D + 9 * rho) (m :: rev (map g2 (removelast ls2)) ++ [y1])).
  { intros y1 Y. apply chain_weaken with (dmax + 3 * rho + 6 * rho); [lra|].
    pose proof (half_chain (- c1) (- m) s2 dmax rho (6 * rho) f2 ltac:(lra) ltac:(lra) ltac:(lra) N2 M2 (- y1) ls2 Ps2 ltac:(lra) As2 Wi2 J2) as K.
    change (- y1 :: map f2 (removelast ls2) ++ [- m]) with ((- y1) :: map f2 (removelast ls2) ++ [- m]) in K.
    assert (E : (- y1) :: map f2 (removelast ls2) ++ [- m] = map Qopp (y1 :: map g2 (removelast ls2) ++ [m])).
    { cbn [map]. rewrite map_app, map_map. reflexivity. }
    rewrite E in K. apply chain_opp, chain_rev in K. cbn [rev] in K. rewrite rev_app_distr in K. cbn [rev app] in K. exact K. }
  assert (Em' : m = r_mid double cb ca) by exact Em.
  unfold r_mesh_interval. fold db da cb ca m c0 c1 ls1 ls2. fold f1 g2.
  set (h1 := if is_oneline (p_policy b) then [] else [c0]). set (h2 := if is_oneline (p_policy a) then [] else [c1]).
  assert (Between : forall x, In x (h1 ++ map f1 (removelast ls1) ++ [m] ++ rev (map g2 (removelast ls2)) ++ h2) -> cb <= x <= ca).
  { intros x X. rewrite !in_app_iff in X. destruct X as [X|[X|[X|[X|X]]]].
    - unfold h1 in X. destruct (is_oneline (p_policy b)); [destruct X|]. destruct X as [<-|[]]. lra.
    - pose proof (L1 x X). pose proof (U1 x X). lra.
    - destruct X as [<-|[]]. lra.
    - rewrite <- in_rev in X. pose proof (L2 x X). pose proof (U2' x X). lra.
    - unfold h2 in X. destruct (is_oneline (p_policy a)); [destruct X|]. destruct X as [<-|[]]. lra. }
  split.
  - fold cb ca.
    assert (F1 : chain (D + 9 * rho) (((if is_oneline (p_policy b) then [cb] else []) ++ h1 ++ map f1 (removelast ls1)) ++ [m])).
    { unfold h1. destruct (is_oneline (p_policy b)) eqn:O; cbn [app].
      - apply Ch1. symmetry. unfold c0, db. rewrite (oneline_init_before b _ O). rewrite double_fixed; [ring|]. apply (is_double_comp cb); [ring|exact Cb].
      - apply Ch1. reflexivity. }
    assert (F2 : chain (D + 9 * rho) (m :: rev (map g2 (removelast ls2)) ++ h2 ++ (if is_oneline (p_policy a) then [ca] else []))).
    { unfold h2. destruct (is_oneline (p_policy a)) eqn:O; cbn [app].
      - apply Ch2. symmetry. unfold c1, da. rewrite (oneline_init_after a _ O). rewrite double_fixed; [ring|]. apply (is_double_comp ca); [ring|exact Ca].
      - apply Ch2. reflexivity. }
    pose proof (chain_app _ _ _ _ F1 F2) as F. rewrite <- !app_assoc in F. rewrite <- !app_assoc. exact F.
  - exact Between.
  - fold cb ca. rewrite <- Em'. rewrite !in_app_iff. right. right. left. now left.
  - exists (h1 ++ map f1 (removelast ls1)), m, (rev (map g2 (removelast ls2)) ++ h2).
    split; [now rewrite <- !app_assoc|].
    assert (Q1 : ascending (c0 :: map f1 (removelast ls1))).
    { assert (K : ascending (map f1 (removelast ls1))).
      { apply ascending_map; [exact Mono1|]. apply ascending_removelast. destruct ls1 as [|z ls1]; [exact I|apply As1]. }
      destruct (map f1 (removelast ls1)) as [|y l] eqn:E; [exact I|]. split; [apply L1; now left|exact K]. }
    assert (Q2 : ascending (rev (map g2 (removelast ls2)) ++ [c1])).
    { assert (K : ascending (rev (map g2 (removelast ls2)))).
      { apply ascending_rev_anti; [exact Mono2|]. apply ascending_removelast. destruct ls2 as [|z ls2]; [exact I|apply As2]. }
      assert (K2 : forall y, In y (rev (map g2 (removelast ls2))) -> y <= c1) by (intros y Y; rewrite <- in_rev in Y; now apply L2).
      destruct (rev (map g2 (removelast ls2))) as [|y l] using rev_ind; [exact I|]. rewrite <- app_assoc. apply ascending_app_last; [exact K|].
      apply K2, in_app_iff. right. now left. }
    assert (T1 : forall u v, ascending (u ++ v) -> ascending u).
    { induction u as [|x [|y u] IH]; intros v K; [exact I|exact I|]. destruct K as [K1 K2]. split; [exact K1|]. now apply (IH v). }
    split; [|split; [|split]].
    + unfold h1. destruct (is_oneline (p_policy b)); [|exact Q1]. cbn [app]. destruct (map f1 (removelast ls1)); [exact I|apply Q1].
    + unfold h2. destruct (is_oneline (p_policy a)); [|exact Q2]. rewrite app_nil_r. now apply T1 in Q2.
    + intros x X. apply in_app_iff in X. destruct X as [X|X].
      * unfold h1 in X. destruct (is_oneline (p_policy b)); [destruct X|]. destruct X as [<-|[]]. lra.
      * pose proof (U1 x X). lra.
    + intros x X. apply in_app_iff in X. destruct X as [X|X].
      * rewrite <- in_rev in X. pose proof (U2' x X). lra.
      * unfold h2 in X. destruct (is_oneline (p_policy a)); [destruct X|]. destruct X as [<-|[]]. lra.
  - intros O. exists (p_d b). unfold h1. rewrite O. cbn [app]. eexists. split; [reflexivity|]. split; [exact Db|]. lra.
  - intros O. exists (p_d a). unfold h2. rewrite O. rewrite !app_assoc. eexists. split; [reflexivity|]. split; [exact Da|]. lra.
Qed.
End Cell.
