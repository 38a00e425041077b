(** Proofs about the lines of half an interval, with doubles. *)
From Coq Require Import List Arith Bool ZArith QArith Qabs Qround Qpower Lia Lqa Setoid.
From Verif Require Import IntervalModel IntervalSpec IntervalProofs InfraModel RoundModel RoundSpec RoundProofs.
Import ListNotations.
Open Scope Q_scope.

Lemma rounding_eq x : rounding x = unit_roundoff * x + smallest. Proof. reflexivity. Qed.
Lemma rounding_pos x : 0 <= x -> 0 < rounding x.
Proof. intros H. rewrite rounding_eq. assert (0 < smallest) by reflexivity. unfold unit_roundoff. lra. Qed.
Lemma rounding_mono x y : x <= y -> rounding x <= rounding y.
Proof. intros H. rewrite !rounding_eq. unfold unit_roundoff. lra. Qed.
Lemma double_near x y : 0 <= x -> x <= y -> x - rounding y <= double x <= x + rounding y.
Proof. intros P L. pose proof (double_bounds x P). pose proof (rounding_mono x y L). rewrite !rounding_eq in *. lra. Qed.

(** ** One space after the other *)

Section Lines.
Variables sm dmax s : Q.
Hypothesis Sm : 1 <= sm.
Hypothesis Ddmax : is_double dmax.

Let next := r_next_space double sm dmax.
Let room := rounding (s + dmax).

Lemma next_range cd : 0 <= cd <= dmax -> 0 <= next cd <= dmax.
Proof.
  intros [A B]. unfold next, r_next_space. destruct (Qltb_spec cd dmax) as [C|C]; [|lra]. cbv zeta.
  assert (0 <= double (cd * sm)) by (apply double_nonneg; nra). destruct (Qltb_spec dmax (double (cd * sm))); lra.
Qed.
Lemma next_double cd : is_double cd -> is_double (next cd).
Proof.
  intros D. unfold next, r_next_space. destruct (Qltb cd dmax); [|exact D]. cbv zeta.
  destruct (Qltb dmax (double (cd * sm))); [exact Ddmax|apply double_is_double].
Qed.
Lemma next_ge cd : is_double cd -> 0 <= cd -> cd <= next cd.
Proof.
  intros D P. unfold next, r_next_space. destruct (Qltb_spec cd dmax) as [C|C]; [|lra]. cbv zeta.
  assert (cd <= double (cd * sm)) by (apply double_ge; [exact D|nra]). destruct (Qltb_spec dmax (double (cd * sm))); lra.
Qed.
Lemma next_growth cd : 0 <= cd <= dmax -> next cd <= sm * cd + rounding dmax.
Proof.
  intros [A B]. pose proof (rounding_pos dmax ltac:(lra)). unfold next, r_next_space. destruct (Qltb_spec cd dmax) as [C|C]; [|nra]. cbv zeta.
  destruct (Qlt_le_dec dmax (cd * sm)) as [K|K].
  - destruct (Qltb_spec dmax (double (cd * sm))); lra.
  - pose proof (double_near (cd * sm) dmax ltac:(nra) K). destruct (Qltb_spec dmax (double (cd * sm))); lra.
Qed.

Inductive drun : Q -> Q -> list Q -> Prop :=
| drun_stop cd cs : s <= cs -> drun cd cs []
| drun_step cd cs ls : cs < s ->
    drun (next cd) (double (cs + next cd)) ls ->
    drun cd cs (double (cs + next cd) :: ls).

Lemma loop_drun n : forall cd cs ls, r_find_ls_loop double n sm dmax s cd cs = Some ls -> drun cd cs ls.
Proof.
  induction n as [|n IH]; cbn; intros cd cs ls E; [discriminate|]. destruct (Qltb_spec cs s) as [L|L].
  - destruct (r_find_ls_loop double n _ _ _ _ _) as [r|] eqn:F; [|discriminate]. injection E as <-. constructor; auto.
  - injection E as <-. now constructor.
Qed.
Lemma drun_loop cd cs ls : drun cd cs ls -> forall n, (length ls < n)%nat -> r_find_ls_loop double n sm dmax s cd cs = Some ls.
Proof.
  induction 1 as [cd cs L|cd cs ls L R IH]; intros [|n] Hn; cbn in *; try lia.
  - destruct (Qltb_spec cs s); [lra|reflexivity].
  - destruct (Qltb_spec cs s); [|lra]. fold next. rewrite IH; [reflexivity|lia].
Qed.

Lemma step_near cd cs : 0 <= cs -> cs < s -> 0 <= cd <= dmax ->
  cs + next cd - room <= double (cs + next cd) <= cs + next cd + room.
Proof. intros A B C. pose proof (next_range cd C). apply double_near; lra. Qed.

Lemma drun_spec cd cs ls : drun cd cs ls -> is_double cs -> 0 <= cs -> 0 <= cd <= dmax ->
  ascending (cs :: ls) /\ Forall is_double ls /\ within (dmax + room) (cs :: ls)
  /\ (ls = [] <-> s <= cs) /\ (cs < s -> just_covers s ls).
Proof.
  induction 1 as [cd cs L|cd cs ls L R IH]; intros D P C.
  - split; [exact I|]. split; [constructor|]. split; [exact I|]. split; [split; [intros _; exact L|reflexivity]|lra].
  - pose proof (next_range cd C) as C'. pose proof (step_near cd cs P L C) as S.
    assert (G : cs <= double (cs + next cd)) by (apply double_ge; [exact D|lra]).
    destruct IH as (I1 & I2 & I3 & I4 & I5); [apply double_is_double|lra|exact C'|].
    split; [split; [exact G|exact I1]|]. split; [constructor; [apply double_is_double|exact I2]|].
    split; [split; [lra|exact I3]|]. split; [split; [discriminate|lra]|]. intros _. unfold just_covers.
    destruct ls as [|y r].
    + split; [discriminate|]. cbn. split; [now apply I4|constructor].
    + assert (K : double (cs + next cd) < s).
      { apply Qnot_le_lt. intros K. apply I4 in K. discriminate. }
      destruct (I5 K) as (_ & J1 & J2). split; [discriminate|]. split; [exact J1|]. constructor; [exact K|exact J2].
Qed.
Lemma drun_apart d0 cd cs ls : drun cd cs ls -> is_double cd -> 0 <= cs -> 0 <= cd <= dmax -> 0 <= d0 <= cd ->
  apart (d0 - room) (cs :: ls).
Proof.
  induction 1 as [cd cs L|cd cs ls L R IH]; intros D P C B; [exact I|].
  pose proof (next_range cd C) as C'. pose proof (step_near cd cs P L C) as S. pose proof (next_ge cd D ltac:(lra)).
  split; [lra|]. apply IH; [now apply next_double|apply double_nonneg; lra|exact C'|lra].
Qed.
Lemma drun_growth cd cs ls : drun cd cs ls -> forall prev, 0 <= s -> 0 <= cs -> 0 <= cd <= dmax -> cd <= prev + room ->
  growth_near sm ((sm + 2) * room) prev (cs :: ls).
Proof.
  induction 1 as [cd cs L|cd cs ls L R IH]; intros prev Ps P C B; [exact I|].
  pose proof (next_range cd C) as C'. pose proof (step_near cd cs P L C) as S. pose proof (next_growth cd C) as G.
  assert (M : rounding dmax <= room) by (apply rounding_mono; lra).
  assert (N : 0 <= sm * (prev + room - cd)) by (apply Qmult_le_0_compat; lra).
  split; [lra|]. apply IH; [exact Ps|apply double_nonneg; lra|exact C'|lra].
Qed.

(** ** The end *)

Lemma drun_ends d0 : 0 < d0 -> room <= d0 / 2 -> forall k cd cs, is_double cd -> 0 <= cs -> 0 <= cd <= dmax -> d0 <= cd ->
  s - cs <= inject_Z (Z.of_nat k) * (d0 / 2) -> exists ls, drun cd cs ls.
Proof.
  intros P0 H. assert (E2 : d0 / 2 == (1 # 2) * d0) by field. induction k as [|k IH]; intros cd cs D P C B M; rewrite E2 in H, M.
  - exists []. constructor. change (inject_Z (Z.of_nat 0)) with 0 in M. lra.
  - destruct (Qlt_le_dec cs s) as [L|L]; [|exists []; now constructor].
    pose proof (next_range cd C) as C'. pose proof (step_near cd cs P L C) as S. pose proof (next_ge cd D ltac:(lra)).
    destruct (IH (next cd) (double (cs + next cd))) as (ls & R).
    + now apply next_double.
    + apply double_nonneg. lra.
    + exact C'.
    + lra.
    + rewrite Nat2Z.inj_succ, <- Z.add_1_r, inject_Z_plus in M. change (inject_Z 1) with 1 in M.
      rewrite E2. set (w := inject_Z (Z.of_nat k)) in *. clearbody w. lra.
    + exists (double (cs + next cd) :: ls). now constructor.
Qed.
End Lines.

Lemma qmin_double a b : is_double a -> is_double b -> is_double (qmin a b).
Proof. intros A B. unfold qmin. now destruct (Qltb b a). Qed.

Lemma nat_bound x : exists k : nat, x <= inject_Z (Z.of_nat k).
Proof.
  exists (Z.to_nat (Qceiling x)). apply Qle_trans with (1 := Qle_ceiling x). rewrite <- Zle_Qle. lia.
Qed.

Lemma r_find_ls_ends d sm dmax s : is_double d -> is_double dmax -> 0 < d -> 0 < dmax -> 1 <= sm ->
  rounding (s + dmax) <= qmin d dmax / 2 -> exists ls, drun sm dmax s (qmin d dmax) 0 ls.
Proof.
  intros D1 D2 P1 P2 S H. pose proof (qmin_pos d dmax P1 P2) as P. pose proof (qmin_le_r d dmax).
  assert (E2 : qmin d dmax / 2 == (1 # 2) * qmin d dmax) by field.
  destruct (nat_bound (s / (qmin d dmax / 2))) as (k & K).
  apply (drun_ends sm dmax s S D2 (qmin d dmax) P H k); [now apply qmin_double|lra|lra|lra|].
  assert (Z : s == s / (qmin d dmax / 2) * (qmin d dmax / 2)) by (field; lra).
  setoid_replace (s - 0) with s by ring. rewrite Z. apply Qmult_le_compat_r; [exact K|lra].
Qed.
Lemma ends_drun d sm dmax s ls : ends (fun n => r_find_ls double n d sm dmax s) ls <-> drun sm dmax s (qmin d dmax) 0 ls.
Proof.
  split.
  - intros [n E]. apply (loop_drun sm dmax s n). apply E. apply le_n.
  - intros R. exists (S (length ls)). intros m L. apply (drun_loop sm dmax s _ _ _ R). lia.
Qed.
Lemma find_ls_drun n d sm dmax s ls : r_find_ls double n d sm dmax s = Some ls -> drun sm dmax s (qmin d dmax) 0 ls.
Proof. apply loop_drun. Qed.
Lemma drun_fun sm dmax s cd cs ls ls' : drun sm dmax s cd cs ls -> drun sm dmax s cd cs ls' -> ls = ls'.
Proof.
  intros A B. pose proof (drun_loop sm dmax s _ _ _ A (S (length ls + length ls')) ltac:(lia)) as E.
  rewrite (drun_loop sm dmax s _ _ _ B) in E by lia. congruence.
Qed.
