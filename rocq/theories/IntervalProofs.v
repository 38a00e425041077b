(** Proofs about the meshing of an interval. *)
From Coq Require Import List Arith Bool QArith Qabs Qround Qminmax Lia Lqa.
From Verif Require Import IntervalModel IntervalSpec.
Import ListNotations.
Open Scope Q_scope.

(* ------------------------------------------------------------------ *)
(** * Comparisons *)

Lemma Qltb_lt a b : Qltb a b = true <-> a < b.
Proof.
  unfold Qltb. rewrite negb_true_iff. split; intros H.
  - apply Qnot_le_lt. intros L. apply Qle_bool_iff in L. congruence.
  - apply not_true_is_false. intros L. apply Qle_bool_iff in L. lra.
Qed.

Lemma Qltb_ge a b : Qltb a b = false <-> b <= a.
Proof.
  unfold Qltb. rewrite negb_false_iff. apply Qle_bool_iff.
Qed.

Lemma Qltb_spec a b : BoolSpec (a < b) (b <= a) (Qltb a b).
Proof.
  destruct (Qltb a b) eqn:E; constructor; [now apply Qltb_lt | now apply Qltb_ge].
Qed.

Ltac qcases := repeat match goal with
  | |- context [Qltb ?a ?b] => destruct (Qltb_spec a b)
  | H : context [Qltb ?a ?b] |- _ => destruct (Qltb_spec a b)
  end.

Lemma qmin_min a b : qmin a b == Qmin a b.
Proof.
  unfold qmin. qcases.
  - rewrite Q.min_r; lra.
  - rewrite Q.min_l; lra.
Qed.

Lemma qmin_cases a b : (a <= b /\ qmin a b = a) \/ (b < a /\ qmin a b = b).
Proof. unfold qmin. qcases; auto. Qed.

Lemma qmin_le_l a b : qmin a b <= a.
Proof. destruct (qmin_cases a b) as [[? ->]|[? ->]]; lra. Qed.

Lemma qmin_le_r a b : qmin a b <= b.
Proof. destruct (qmin_cases a b) as [[? ->]|[? ->]]; lra. Qed.

Lemma qmin_pos a b : 0 < a -> 0 < b -> 0 < qmin a b.
Proof. destruct (qmin_cases a b) as [[? ->]|[? ->]]; lra. Qed.

(* ------------------------------------------------------------------ *)
(** * find_ls, without the fuel *)

Inductive run (sm dmax s : Q) : Q -> Q -> list Q -> Prop :=
| run_stop cd cs : s <= cs -> run sm dmax s cd cs []
| run_step cd cs ls : cs < s ->
    run sm dmax s (next_space sm dmax cd) (cs + next_space sm dmax cd) ls ->
    run sm dmax s cd cs ((cs + next_space sm dmax cd) :: ls).

Lemma loop_run n : forall sm dmax s cd cs ls,
  find_ls_loop n sm dmax s cd cs = Some ls -> run sm dmax s cd cs ls.
Proof.
  induction n as [|n IH]; cbn; intros sm dmax s cd cs ls E; [discriminate|].
  destruct (Qltb_spec cs s) as [L|L].
  - destruct (find_ls_loop n _ _ _ _ _) as [r|] eqn:F; [|discriminate].
    injection E as <-. constructor; auto.
  - injection E as <-. now constructor.
Qed.

Lemma run_loop sm dmax s cd cs ls : run sm dmax s cd cs ls ->
  forall n, (length ls < n)%nat -> find_ls_loop n sm dmax s cd cs = Some ls.
Proof.
  induction 1 as [cd cs L|cd cs ls L R IH]; intros [|n] Hn; cbn in *; try lia.
  - destruct (Qltb_spec cs s); [lra|reflexivity].
  - destruct (Qltb_spec cs s); [|lra]. rewrite IH; [reflexivity|lia].
Qed.

Lemma loop_mono n m sm dmax s cd cs ls :
  find_ls_loop n sm dmax s cd cs = Some ls -> (n <= m)%nat ->
  find_ls_loop m sm dmax s cd cs = Some ls.
Proof.
  revert m sm dmax s cd cs ls. induction n as [|n IH]; intros [|m] sm dmax s cd cs ls E L; cbn in *; try discriminate; try lia.
  destruct (Qltb cs s); [|exact E].
  destruct (find_ls_loop n _ _ _ _ _) as [r|] eqn:F; [|discriminate].
  rewrite (IH m _ _ _ _ _ _ F) by lia. exact E.
Qed.

Lemma find_ls_mono n m d sm dmax s ls :
  find_ls n d sm dmax s = Some ls -> (n <= m)%nat -> find_ls m d sm dmax s = Some ls.
Proof. apply loop_mono. Qed.

Definition lines (d sm dmax s : Q) (ls : list Q) : Prop := run sm dmax s (qmin d dmax) 0 ls.

Lemma find_ls_lines n d sm dmax s ls : find_ls n d sm dmax s = Some ls -> lines d sm dmax s ls.
Proof. apply loop_run. Qed.

Lemma lines_find_ls d sm dmax s ls : lines d sm dmax s ls ->
  forall n, (length ls < n)%nat -> find_ls n d sm dmax s = Some ls.
Proof. intros R n L. now apply run_loop. Qed.

Lemma run_fun sm dmax s cd cs l1 l2 : run sm dmax s cd cs l1 -> run sm dmax s cd cs l2 -> l1 = l2.
Proof.
  intros A B.
  assert (E1 := run_loop _ _ _ _ _ _ A (S (length l1 + length l2)) ltac:(lia)).
  assert (E2 := run_loop _ _ _ _ _ _ B (S (length l1 + length l2)) ltac:(lia)).
  congruence.
Qed.

Lemma lines_fun d sm dmax s l1 l2 : lines d sm dmax s l1 -> lines d sm dmax s l2 -> l1 = l2.
Proof. apply run_fun. Qed.

Lemma ends_lines d sm dmax s ls : ends (fun n => find_ls n d sm dmax s) ls <-> lines d sm dmax s ls.
Proof.
  split.
  - intros [n H]. apply (find_ls_lines n). apply H. lia.
  - intros R. exists (S (length ls)). intros m L. apply lines_find_ls; [assumption|lia].
Qed.

(* ------------------------------------------------------------------ *)
(** * One turn *)

Lemma next_space_ge sm dmax cd : 1 <= sm -> 0 < cd -> cd <= dmax -> cd <= next_space sm dmax cd.
Proof. intros S D L. unfold next_space. qcases; nra. Qed.

Lemma next_space_pos sm dmax cd : 1 <= sm -> 0 < cd -> cd <= dmax -> 0 < next_space sm dmax cd.
Proof. intros S D L. pose proof (next_space_ge sm dmax cd S D L). lra. Qed.

Lemma next_space_le_dmax sm dmax cd : cd <= dmax -> next_space sm dmax cd <= dmax.
Proof. intros L. unfold next_space. qcases; lra. Qed.

Lemma next_space_le_sm sm dmax cd : 1 <= sm -> 0 < cd -> next_space sm dmax cd <= sm * cd.
Proof. intros S D. unfold next_space. qcases; nra. Qed.

Lemma next_space_min sm dmax cd x : 1 <= sm -> 0 < x -> 0 < dmax ->
  cd == Qmin x dmax -> next_space sm dmax cd == Qmin (x * sm) dmax.
Proof.
  intros S X D E. unfold next_space.
  destruct (Q.min_spec x dmax) as [[L M]|[L M]]; rewrite M in E.
  - destruct (Qltb_spec cd dmax); [|lra].
    destruct (Qltb_spec dmax (cd * sm)) as [G|G]; rewrite E in G.
    + rewrite Q.min_r; lra.
    + rewrite Q.min_l, E; lra.
  - destruct (Qltb_spec cd dmax); [lra|]. rewrite Q.min_r; [assumption|nra].
Qed.

(* ------------------------------------------------------------------ *)
(** * Termination of find_ls *)

Lemma run_exists sm dmax s n : 1 <= sm -> forall cd cs, 0 < cd -> cd <= dmax ->
  s - cs <= inject_Z (Z.of_nat n) * cd ->
  exists ls, run sm dmax s cd cs ls.
Proof.
  intros S. induction n as [|n IH]; intros cd cs D L B.
  - exists []. constructor. change (inject_Z (Z.of_nat 0)) with 0 in B. lra.
  - destruct (Qlt_le_dec cs s) as [C|C]; [|exists []; now constructor].
    destruct (IH (next_space sm dmax cd) (cs + next_space sm dmax cd)) as [ls R].
    + now apply next_space_pos.
    + now apply next_space_le_dmax.
    + pose proof (next_space_ge sm dmax cd S D L).
      rewrite Nat2Z.inj_succ in B. unfold Z.succ in B. rewrite inject_Z_plus in B.
      assert (0 <= inject_Z (Z.of_nat n)) by (change 0 with (inject_Z 0); rewrite <- Zle_Qle; lia).
      change (inject_Z 1) with 1 in B. nra.
    + eexists. constructor; eassumption.
Qed.

Lemma archimed (x d : Q) : 0 < d -> exists n, x <= inject_Z (Z.of_nat n) * d.
Proof.
  intros D. exists (Z.to_nat (Qceiling (x / d))).
  assert (x / d <= inject_Z (Z.of_nat (Z.to_nat (Qceiling (x / d))))) as A.
  { eapply Qle_trans; [apply Qle_ceiling|]. rewrite <- Zle_Qle. lia. }
  setoid_replace x with (x / d * d) at 1 by (field; lra).
  apply Qmult_le_compat_r; [exact A|lra].
Qed.

Lemma lines_exist d sm dmax s : 0 < d -> 0 < dmax -> 1 <= sm -> exists ls, lines d sm dmax s ls.
Proof.
  intros D M S. destruct (archimed (s - 0) (qmin d dmax)) as [n A]; [now apply qmin_pos|].
  apply (run_exists sm dmax s n S); [now apply qmin_pos | apply qmin_le_r | exact A].
Qed.

(** No end when the first space is not positive. *)
Lemma next_space_nonpos sm dmax cd : 0 <= sm -> cd <= 0 -> cd <= dmax -> next_space sm dmax cd <= 0.
Proof. intros S D L. unfold next_space. qcases; nra. Qed.

Lemma loop_hangs sm dmax s n : 0 <= sm -> forall cd cs, cd <= 0 -> cd <= dmax -> cs < s ->
  find_ls_loop n sm dmax s cd cs = None.
Proof.
  intros S. induction n as [|n IH]; intros cd cs D L C; [reflexivity|].
  cbn. destruct (Qltb_spec cs s); [|lra].
  pose proof (next_space_nonpos sm dmax cd S D L).
  rewrite IH; [reflexivity|assumption|now apply next_space_le_dmax|lra].
Qed.

Lemma find_ls_hangs d sm dmax s : 0 <= sm -> d <= 0 \/ dmax <= 0 -> 0 < s ->
  hangs (fun n => find_ls n d sm dmax s).
Proof.
  intros S D P n. apply loop_hangs; auto.
  - pose proof (qmin_le_l d dmax). pose proof (qmin_le_r d dmax). lra.
  - apply qmin_le_r.
Qed.

(* ------------------------------------------------------------------ *)
(** * The lines found *)

Definition space_from (cs : Q) (ls : list Q) (k : nat) : Q :=
  nth k ls 0 - match k with O => cs | S j => nth j ls 0 end.

Lemma space_from_0 ls k : space_from 0 ls k == space ls k.
Proof. unfold space_from, space. destruct k; lra. Qed.

Lemma space_from_cons cs a r k : space_from cs (a :: r) (S k) = space_from a r k.
Proof. unfold space_from. destruct k; reflexivity. Qed.

Lemma run_closed sm dmax s cd cs ls : run sm dmax s cd cs ls -> 1 <= sm -> 0 < dmax ->
  forall x, 0 < x -> cd == Qmin x dmax ->
  forall k, (k < length ls)%nat -> space_from cs ls k == Qmin (x * qpow sm (S k)) dmax.
Proof.
  induction 1 as [cd cs L|cd cs ls L R IH]; intros S D x X E k K; cbn in K; [lia|].
  pose proof (next_space_min sm dmax cd x S X D E) as N.
  destruct k as [|k].
  - unfold space_from. cbn. rewrite Qmult_1_l. rewrite <- N. lra.
  - rewrite space_from_cons. rewrite (IH S D (x * sm)); [|nra|assumption|lia].
    cbn. assert (x * sm * (qpow sm k * sm) == x * (qpow sm k * sm * sm)) as -> by ring. reflexivity.
Qed.

Lemma lines_closed d sm dmax s ls : lines d sm dmax s ls -> 0 < d -> 0 < dmax -> 1 <= sm ->
  forall k, (k < length ls)%nat -> space ls k == Qmin (d * qpow sm (S k)) dmax.
Proof.
  intros R D M S k K. rewrite <- space_from_0.
  apply (run_closed _ _ _ _ _ _ R); auto. apply qmin_min.
Qed.

Lemma qpow_ge1 sm k : 1 <= sm -> 1 <= qpow sm k.
Proof. intros S. induction k; cbn; [lra|nra]. Qed.

Lemma qpow_mult_pos d sm k : 0 < d -> 1 <= sm -> 0 < d * qpow sm k.
Proof. intros D S. apply Qmult_lt_0_compat; [exact D|]. pose proof (qpow_ge1 sm k S). lra. Qed.

Lemma run_covers sm dmax s cd cs ls : run sm dmax s cd cs ls -> cs < s -> just_covers s ls.
Proof.
  induction 1 as [cd cs L|cd cs ls L R IH]; intros C; [lra|].
  destruct (Qlt_le_dec (cs + next_space sm dmax cd) s) as [H|H].
  - destruct (IH H) as (N & A & B). destruct ls as [|x ls]; [congruence|].
    split; [discriminate|]. split; [exact A|]. constructor; assumption.
  - inversion R as [? ? ? | ? ? ? H1]; subst; [|lra].
    split; [discriminate|]. split; [exact H|]. constructor.
Qed.

Lemma lines_covers d sm dmax s ls : lines d sm dmax s ls -> 0 < s -> just_covers s ls.
Proof. apply run_covers. Qed.

Lemma lines_nil d sm dmax s ls : lines d sm dmax s ls -> (ls = [] <-> s <= 0).
Proof.
  intros R. split.
  - intros ->. inversion R; lra.
  - intros H. inversion R; subst; [reflexivity|lra].
Qed.

(** The same spaces whatever [s]: more space, more lines. *)
Lemma run_more sm dmax s cd cs ls : run sm dmax s cd cs ls ->
  forall s' ls', run sm dmax s' cd cs ls' -> s <= s' -> exists r, ls' = ls ++ r.
Proof.
  induction 1 as [cd cs L|cd cs ls L R IH]; intros s' ls' R' B.
  - exists ls'. reflexivity.
  - inversion R' as [? ? H|? ? l2 H H2]; subst; [lra|].
    destruct (IH _ _ H2 B) as [r ->]. exists r. reflexivity.
Qed.

Lemma lines_more d sm dmax s ls s' ls' : lines d sm dmax s ls -> lines d sm dmax s' ls' -> s <= s' ->
  exists r, ls' = ls ++ r.
Proof. intros R R'. eapply run_more; eassumption. Qed.

(* ------------------------------------------------------------------ *)
(** * The validity check *)

Lemma spaces_valid_iff sm dmax ls : forall a b, spaces_valid sm dmax a b ls = true <->
  forall k, (k < length ls)%nat ->
    space_from b ls k <= dmax + equality_tolerance /\
    space_from b ls k <= sm * (match k with O => b - a | S j => space_from b ls j end) + equality_tolerance.
Proof.
  induction ls as [|c r IH]; intros a b; cbn [spaces_valid].
  - split; [|reflexivity]. intros _ k K. cbn in K. lia.
  - destruct (Qltb_spec (sm * (b - a) + equality_tolerance) (c - b)) as [L|L]; cbn [orb].
    + split; [discriminate|]. intros H. specialize (H O ltac:(cbn; lia)). unfold space_from in H. cbn in H. lra.
    + destruct (Qltb_spec (dmax + equality_tolerance) (c - b)) as [G|G]; cbn [orb].
      * split; [discriminate|]. intros H. specialize (H O ltac:(cbn; lia)). unfold space_from in H. cbn in H. lra.
      * rewrite IH. split.
        -- intros H [|k] K.
           ++ unfold space_from. cbn. lra.
           ++ rewrite space_from_cons. cbn in K. specialize (H k ltac:(lia)). destruct k as [|k]; [|rewrite space_from_cons; exact H].
              unfold space_from in *. cbn in *. exact H.
        -- intros H k K. specialize (H (S k) ltac:(cbn; lia)). rewrite space_from_cons in H.
           destruct k as [|k]; [|rewrite space_from_cons in H; exact H].
           unfold space_from in *. cbn in *. exact H.
Qed.

Lemma valid_iff ls d sm dmax lmin :
  is_ls_valid ls d sm dmax lmin = true <-> conform equality_tolerance ls d sm dmax lmin.
Proof.
  unfold is_ls_valid, conform.
  destruct (Qltb_spec dmax d) as [D|D]; cbn [orb].
  { split; [discriminate|]. intros [H _]. lra. }
  destruct (Nat.ltb_spec (length ls) lmin) as [N|N]; cbn [orb].
  { split; [discriminate|]. intros (_ & H & _). lia. }
  destruct ls as [|a r].
  { split; [discriminate|]. intros (_ & _ & H & _). congruence. }
  assert (H0 : forall P Q : Prop, (P <-> Q) -> (P <-> d <= dmax /\ (lmin <= length (a :: r))%nat /\ a :: r <> [] /\ Q)).
  { intros P Q [H1 H2]. split; [intros p; split; [exact D|split; [exact N|split; [discriminate|auto]]]|intros (_&_&_&q); auto]. }
  apply H0. clear H0.
  destruct (Qltb_spec (sm * d + equality_tolerance) a) as [A|A]; cbn [orb].
  { split; [discriminate|]. intros H. specialize (H O ltac:(cbn; lia)). unfold space, space_before in H. cbn in H. lra. }
  destruct (Qltb_spec (dmax + equality_tolerance) a) as [B|B]; cbn [orb].
  { split; [discriminate|]. intros H. specialize (H O ltac:(cbn; lia)). unfold space, space_before in H. cbn in H. lra. }
  destruct r as [|b r].
  { split; [|reflexivity]. intros _ k K. cbn in K. assert (k = 0)%nat as -> by lia. unfold space, space_before. cbn. lra. }
  destruct (Qltb_spec (sm * a + equality_tolerance) (b - a)) as [A'|A']; cbn [orb].
  { split; [discriminate|]. intros H. specialize (H 1%nat ltac:(cbn; lia)). unfold space, space_before in H. cbn in H. unfold space in H. cbn in H. lra. }
  destruct (Qltb_spec (dmax + equality_tolerance) (b - a)) as [B'|B']; cbn [orb].
  { split; [discriminate|]. intros H. specialize (H 1%nat ltac:(cbn; lia)). unfold space, space_before in H. cbn in H. unfold space in H. cbn in H. lra. }
  rewrite spaces_valid_iff. split.
  - intros H [|[|k]] K.
    + unfold space, space_before. cbn. lra.
    + unfold space_before, space. cbn. lra.
    + cbn in K. specialize (H k ltac:(lia)).
      destruct k as [|k]; unfold space_before, space_from, space in *; cbn in *; exact H.
  - intros H k K. specialize (H (S (S k)) ltac:(cbn; lia)).
    destruct k as [|k]; unfold space_before, space_from, space in *; cbn in *; exact H.
Qed.

Lemma lines_spaces d sm dmax s ls : lines d sm dmax s ls -> 0 < d -> 0 < dmax -> 1 <= sm ->
  forall k, (k < length ls)%nat ->
    0 < space ls k /\ space ls k <= dmax /\ space ls k <= sm * space_before d ls k.
Proof.
  intros R D M S k K. rewrite (lines_closed _ _ _ _ _ R D M S k K).
  pose proof (qpow_ge1 sm k S) as P.
  split; [|split].
  - destruct (Q.min_spec (d * qpow sm (Datatypes.S k)) dmax) as [[_ ->]|[_ ->]]; [|lra].
    now apply qpow_mult_pos.
  - apply Q.le_min_r.
  - destruct k as [|k].
    + cbn. eapply Qle_trans; [apply Q.le_min_l|]. lra.
    + cbn [space_before]. rewrite (lines_closed _ _ _ _ _ R D M S k ltac:(lia)).
      pose proof (qpow_mult_pos d sm (Datatypes.S k) D S). cbn [qpow] in *.
      destruct (Q.min_spec (d * (qpow sm k * sm)) dmax) as [[L ->]|[L ->]].
      * eapply Qle_trans; [apply Q.le_min_l|]. lra.
      * eapply Qle_trans; [apply Q.le_min_r|]. nra.
Qed.

Lemma lines_nondecreasing d sm dmax s ls : lines d sm dmax s ls -> 0 < d -> 0 < dmax -> 1 <= sm ->
  forall k, (S k < length ls)%nat -> space ls k <= space ls (S k).
Proof.
  intros R D M S k K. rewrite !(lines_closed _ _ _ _ _ R D M S) by lia.
  apply Q.min_le_compat_r. pose proof (qpow_mult_pos d sm (Datatypes.S k) D S). cbn [qpow] in *. nra.
Qed.

Lemma lines_valid d sm dmax s ls lmin : lines d sm dmax s ls -> 0 < d -> 0 < dmax -> 1 <= sm ->
  (is_ls_valid ls d sm dmax lmin = true <-> d <= dmax /\ (lmin <= length ls)%nat /\ 0 < s).
Proof.
  intros R D M S. rewrite valid_iff. unfold conform.
  pose proof (lines_nil _ _ _ _ _ R) as N.
  split.
  - intros (A & B & C & _). split; [exact A|split; [exact B|]].
    apply Qnot_le_lt. intros H. tauto.
  - intros (A & B & C). split; [exact A|split; [exact B|split]].
    + intros H. apply N in H. lra.
    + intros k K. pose proof (lines_spaces _ _ _ _ _ R D M S k K) as (_ & H1 & H2).
      unfold equality_tolerance. split; lra.
Qed.
