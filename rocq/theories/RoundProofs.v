(** Facts about the arithmetic of doubles. *)
From Coq Require Import List Arith Bool ZArith QArith Qabs Qround Qpower Lia Lqa Setoid.
From Verif Require Import IntervalModel IntervalProofs InfraModel InfraNumberProofs RoundModel RoundSpec.
Import ListNotations.
Open Scope Q_scope.

(** ** Powers of two *)

Lemma two_pos e : 0 < 2 ^ e. Proof. now apply Qpower_0_lt. Qed.
Lemma two_plus a b : 2 ^ (a + b) == 2 ^ a * 2 ^ b. Proof. now apply Qpower_plus. Qed.
Lemma two_succ e : 2 ^ (e + 1) == 2 * 2 ^ e. Proof. rewrite two_plus. change (2 ^ 1) with 2. ring. Qed.
Lemma two_le a b : (a <= b)%Z -> 2 ^ a <= 2 ^ b. Proof. intros H. now apply Qpower_le_compat_l. Qed.
Lemma two_lt a b : (a < b)%Z -> 2 ^ a < 2 ^ b. Proof. intros H. now apply Qpower_lt_compat_l. Qed.
Lemma two_lt_inv a b : 2 ^ a < 2 ^ b -> (a < b)%Z. Proof. intros H. now apply (Qpower_lt_compat_l_inv 2). Qed.
Lemma two_Z e : (0 <= e)%Z -> 2 ^ e == inject_Z (2 ^ e). Proof. intros H. symmetry. now apply Zpower_Qpower. Qed.
Lemma two_whole a b : (a <= b)%Z -> 2 ^ b == inject_Z (2 ^ (b - a)) * 2 ^ a.
Proof. intros H. rewrite <- two_Z by lia. rewrite <- two_plus. now replace (b - a + a)%Z with b by lia. Qed.

Lemma log2_spec x : 0 < x -> 2 ^ log2 x <= x /\ x < 2 ^ (log2 x + 1).
Proof.
  intros P. unfold log2. destruct x as [n d]. cbn [Qnum Qden]. assert (N : (0 < n)%Z) by (unfold Qlt in P; cbn in P; lia).
  pose proof (Z.log2_spec n N) as [N1 N2]. pose proof (Z.log2_spec (Zpos d) eq_refl) as [D1 D2].
  pose proof (Z.log2_nonneg n). pose proof (Z.log2_nonneg (Zpos d)).
  set (i := Z.log2 n) in *. set (j := Z.log2 (Zpos d)) in *. clearbody i j.
  assert (E : (n # d) * inject_Z (Zpos d) == inject_Z n) by (unfold Qeq; cbn; lia).
  assert (Up : n # d < 2 ^ (i - j + 1)).
  { apply (Qmult_lt_r _ _ (inject_Z (Zpos d))); [reflexivity|]. rewrite E.
    apply Qlt_le_trans with (2 ^ (i + 1)); [rewrite two_Z by lia; rewrite <- Zlt_Qlt; exact N2|].
    replace (i + 1)%Z with ((i - j + 1) + j)%Z by lia. rewrite two_plus. rewrite (Qmult_comm _ (2 ^ j)), (Qmult_comm _ (inject_Z _)).
    apply Qmult_le_compat_r; [|apply Qlt_le_weak, two_pos]. rewrite two_Z by lia. now rewrite <- Zle_Qle. }
  assert (Lo : 2 ^ (i - j - 1) < n # d).
  { apply (Qmult_lt_r _ _ (inject_Z (Zpos d))); [reflexivity|]. rewrite E.
    apply Qlt_le_trans with (2 ^ i); [|rewrite two_Z by lia; rewrite <- Zle_Qle; exact N1].
    replace i with ((i - j - 1) + (j + 1))%Z at 2 by lia. rewrite two_plus. rewrite !(Qmult_comm (2 ^ (i - j - 1))).
    apply Qmult_lt_r; [apply two_pos|]. rewrite two_Z by lia. now rewrite <- Zlt_Qlt. }
  destruct (Qle_bool (2 ^ (i - j)) (n # d)) eqn:B.
  - apply Qle_bool_iff in B. now split.
  - split; [now apply Qlt_le_weak|]. replace (i - j - 1 + 1)%Z with (i - j)%Z by lia. apply Qnot_le_lt. intros K. apply Qle_bool_iff in K. congruence.
Qed.
Lemma log2_unique x k : 2 ^ k <= x -> x < 2 ^ (k + 1) -> log2 x = k.
Proof.
  intros A B. assert (P : 0 < x) by (eapply Qlt_le_trans; [apply two_pos|exact A]). destruct (log2_spec x P) as [C D].
  assert (k < log2 x + 1)%Z by (apply two_lt_inv; lra). assert (log2 x < k + 1)%Z by (apply two_lt_inv; lra). lia.
Qed.
Lemma log2_comp x y : 0 < x -> x == y -> log2 x = log2 y.
Proof. intros P E. destruct (log2_spec y) as [A B]; [lra|]. apply log2_unique; lra. Qed.

(** ** The nearest double *)

Lemma double_of_pos x : 0 < x -> double x == inject_Z (round_even (x / 2 ^ last_bit x)) * 2 ^ last_bit x.
Proof.
  intros P. unfold double. assert (A : Qabs x == x) by (apply Qabs_pos; lra).
  destruct (Qle_bool (Qabs x) 0) eqn:B; [apply Qle_bool_iff in B; lra|]. assert (L : last_bit (Qabs x) = last_bit x).
  { unfold last_bit. f_equal. f_equal. apply log2_comp; [|exact A]. lra. }
  destruct (Qltb_spec x 0) as [C|C]; [lra|]. rewrite L. now rewrite A.
Qed.
Lemma double_zero x : x == 0 -> double x == 0.
Proof. intros E. unfold double. destruct (Qle_bool (Qabs x) 0) eqn:B; [reflexivity|]. exfalso.
  assert (~ Qabs x <= 0) as K by (intros K; apply Qle_bool_iff in K; congruence). apply K. now rewrite E. Qed.
Lemma double_opp_pos x : 0 < x -> double (- x) == - double x.
Proof.
  intros P. rewrite (double_of_pos x P). unfold double. assert (A : Qabs (- x) == x) by (rewrite Qabs_opp; apply Qabs_pos; lra).
  destruct (Qle_bool (Qabs (- x)) 0) eqn:B; [apply Qle_bool_iff in B; lra|]. assert (L : last_bit (Qabs (- x)) = last_bit x).
  { unfold last_bit. f_equal. f_equal. apply log2_comp; [|exact A]. lra. }
  destruct (Qltb_spec (- x) 0) as [C|C]; [|lra]. rewrite L. now rewrite A.
Qed.
Lemma double_comp_pos x y : 0 < x -> x == y -> double x == double y.
Proof.
  intros P E. rewrite (double_of_pos x P), (double_of_pos y) by lra. unfold last_bit. rewrite <- (log2_comp x y P E).
  generalize (Z.max (log2 x - 52) (-1074)). intros b. now rewrite E.
Qed.
Lemma double_opp x : double (- x) == - double x.
Proof.
  destruct (Q_dec x 0) as [[C|C]|C].
  - assert (E : x == - (- x)) by ring.
    assert (D : double x == double (- (- x))).
    { unfold double. assert (A : Qabs x == Qabs (- - x)) by now rewrite <- E.
      destruct (Qle_bool (Qabs x) 0) eqn:B; [apply Qle_bool_iff in B; rewrite Qabs_neg in B by lra; lra|].
      destruct (Qle_bool (Qabs (- - x)) 0) eqn:B'; [apply Qle_bool_iff in B'; rewrite Qabs_opp, Qabs_pos in B' by lra; lra|].
      destruct (Qltb_spec x 0) as [C1|C1]; [|lra]. destruct (Qltb_spec (- - x) 0) as [C2|C2]; [|lra].
      assert (0 < Qabs x) by (rewrite Qabs_neg by lra; lra). unfold last_bit. rewrite <- (log2_comp _ _ H A).
      generalize (Z.max (log2 (Qabs x) - 52) (-1074)). intros b. now rewrite A. }
    rewrite D, (double_opp_pos (- x)) by lra. ring.
  - now apply double_opp_pos.
  - rewrite !double_zero by lra. reflexivity.
Qed.
Lemma double_comp x y : x == y -> double x == double y.
Proof.
  intros E. destruct (Q_dec x 0) as [[C|C]|C].
  - pose proof (double_comp_pos (- x) (- y) ltac:(lra) ltac:(lra)) as H. rewrite !double_opp in H. lra.
  - now apply double_comp_pos.
  - rewrite !double_zero by lra. reflexivity.
Qed.
#[global] Instance double_proper : Morphisms.Proper (Morphisms.respectful Qeq Qeq) double.
Proof. exact double_comp. Qed.

Lemma is_double_comp x y : x == y -> is_double x -> is_double y.
Proof. intros E (m & e & M & L & H). exists m, e. split; [exact M|]. split; [exact L|]. now rewrite <- E. Qed.
#[global] Instance is_double_proper : Morphisms.Proper (Morphisms.respectful Qeq iff) is_double.
Proof. intros x y E. split; apply is_double_comp; [exact E|now symmetry]. Qed.
Lemma is_double_opp x : is_double x -> is_double (- x).
Proof. intros (m & e & M & L & H). exists (- m)%Z, e. rewrite Z.abs_opp. split; [exact M|]. split; [exact L|]. rewrite H, inject_Z_opp. ring. Qed.
Lemma is_double_0 : is_double 0.
Proof. exists 0%Z, 0%Z. split; [discriminate|]. split; [lia|reflexivity]. Qed.
Lemma is_double_two e : (-1074 <= e)%Z -> is_double (2 ^ e).
Proof. intros H. exists 1%Z, e. split; [discriminate|]. split; [exact H|]. ring. Qed.

Lemma last_bit_ge x : (-1074 <= last_bit x)%Z. Proof. unfold last_bit. lia. Qed.
(** A number in units of its last bit. *)
Lemma significand x : 0 < x -> let q := x / 2 ^ last_bit x in
  x == q * 2 ^ last_bit x /\ 0 < q /\ q < inject_Z (2 ^ 53) /\ ((-1074 < last_bit x)%Z -> inject_Z (2 ^ 52) <= q).
Proof.
  intros P q. pose proof (two_pos (last_bit x)) as T. assert (E : x == q * 2 ^ last_bit x) by (unfold q; field; lra).
  split; [exact E|]. split; [apply Qlt_shift_div_l; lra|]. destruct (log2_spec x P) as [A B]. split.
  - apply Qlt_shift_div_r; [exact T|]. apply Qlt_le_trans with (1 := B). rewrite <- two_Z by lia. rewrite <- two_plus. apply two_le. unfold last_bit. lia.
  - intros H. apply Qle_shift_div_l; [exact T|]. apply Qle_trans with (2 := A). rewrite <- two_Z by lia. rewrite <- two_plus. apply two_le. unfold last_bit in *. lia.
Qed.

Lemma double_is_double_pos x : 0 < x -> is_double (double x).
Proof.
  intros P. rewrite (double_of_pos x P). destruct (significand x P) as (_ & Q1 & Q2 & _). cbv zeta in *.
  exists (round_even (x / 2 ^ last_bit x)), (last_bit x). split; [|split; [apply last_bit_ge|reflexivity]].
  pose proof (round_even_mono _ _ (Qlt_le_weak _ _ Q2)) as M. rewrite round_even_Z in M.
  pose proof (round_even_nonneg _ (Qlt_le_weak _ _ Q1)). lia.
Qed.
Lemma double_is_double x : is_double (double x).
Proof.
  destruct (Q_dec x 0) as [[C|C]|C].
  - pose proof (double_is_double_pos (- x) ltac:(lra)) as H. rewrite double_opp in H. apply is_double_opp in H. eapply is_double_comp; [|exact H]. ring.
  - now apply double_is_double_pos.
  - rewrite double_zero by exact C. apply is_double_0.
Qed.

Lemma round_even_nearest q n : Qabs (inject_Z (round_even q) - q) <= Qabs (inject_Z n - q).
Proof.
  pose proof (round_even_near q) as [A B]. destruct (Z.eq_dec n (round_even q)) as [->|N]; [apply Qle_refl|].
  assert (H : Qabs (inject_Z (round_even q) - q) <= 1 # 2) by (apply Qabs_Qle_condition; split; assumption).
  apply Qle_trans with (1 := H). destruct (Z_lt_le_dec n (round_even q)) as [L|L].
  - assert (inject_Z n + 1 <= inject_Z (round_even q)) by (change 1 with (inject_Z 1); rewrite <- inject_Z_plus, <- Zle_Qle; lia).
    apply Qle_trans with (- (inject_Z n - q)); [lra|]. rewrite <- Qabs_opp. apply Qle_Qabs.
  - assert (inject_Z (round_even q) + 1 <= inject_Z n) by (change 1 with (inject_Z 1); rewrite <- inject_Z_plus, <- Zle_Qle; lia).
    apply Qle_trans with (inject_Z n - q); [lra|]. apply Qle_Qabs.
Qed.

(** A double that is not below the power of two under [x] is a multiple of the last bit of [x]. *)
Lemma double_multiple x y : 0 < x -> is_double y -> 2 ^ log2 x <= y \/ last_bit x = (-1074)%Z -> exists n, y == inject_Z n * 2 ^ last_bit x.
Proof.
  intros P (m & e & M & L & E) H. destruct (Z_le_gt_dec (last_bit x) e) as [K|K].
  - exists (m * 2 ^ (e - last_bit x))%Z. rewrite E, inject_Z_mult, (two_whole _ _ K). ring.
  - destruct H as [H|H]; [|lia]. assert (N : (last_bit x = log2 x - 52)%Z) by (unfold last_bit in *; lia).
    assert (U : y <= 2 ^ log2 x).
    { rewrite E. apply Qle_trans with (inject_Z (2 ^ 53) * 2 ^ e).
      - apply Qmult_le_compat_r; [|apply Qlt_le_weak, two_pos]. rewrite <- Zle_Qle. lia.
      - rewrite <- two_Z by lia. rewrite <- two_plus. apply two_le. lia. }
    exists (2 ^ 52)%Z. rewrite <- two_Z by lia. rewrite <- two_plus, N. replace (52 + (log2 x - 52))%Z with (log2 x) by lia. lra.
Qed.

Lemma double_nearest_pos x y : 0 < x -> is_double y -> Qabs (double x - x) <= Qabs (y - x).
Proof.
  intros P D. destruct (significand x P) as (E & Q1 & Q2 & Q3). cbv zeta in *. set (b := last_bit x) in *. set (q := x / 2 ^ b) in *.
  pose proof (two_pos b) as T. assert (R : double x == inject_Z (round_even q) * 2 ^ b) by apply (double_of_pos x P).
  assert (Scale : forall n, Qabs (inject_Z n * 2 ^ b - x) == Qabs (inject_Z n - q) * 2 ^ b).
  { intros n. rewrite E. setoid_replace (inject_Z n * 2 ^ b - q * 2 ^ b) with ((inject_Z n - q) * 2 ^ b) by ring.
    rewrite Qabs_Qmult, (Qabs_pos (2 ^ b)) by lra. reflexivity. }
  assert (Any : forall n, Qabs (double x - x) <= Qabs (inject_Z n * 2 ^ b - x)).
  { intros n. rewrite R, !Scale. apply Qmult_le_compat_r; [apply round_even_nearest|lra]. }
  destruct (Qlt_le_dec y (2 ^ log2 x)) as [C|C].
  - destruct (Z.eq_dec b (-1074)) as [B|B].
    + destruct (double_multiple x y P D (or_intror B)) as (n & N). fold b in N. rewrite N. apply Any.
    + assert (N : (b = log2 x - 52)%Z) by (unfold b, last_bit in *; lia).
      assert (W : 2 ^ log2 x == inject_Z (2 ^ 52) * 2 ^ b).
      { rewrite <- two_Z by lia. rewrite <- two_plus, N. now replace (52 + (log2 x - 52))%Z with (log2 x) by lia. }
      apply Qle_trans with (1 := Any (2 ^ 52)%Z). rewrite <- W. destruct (log2_spec x P) as [A _].
      rewrite (Qabs_neg (2 ^ log2 x - x)), (Qabs_neg (y - x)) by lra. lra.
  - destruct (double_multiple x y P D (or_introl C)) as (n & N). fold b in N. rewrite N. apply Any.
Qed.
Lemma double_nearest x y : is_double y -> Qabs (double x - x) <= Qabs (y - x).
Proof.
  intros D. destruct (Q_dec x 0) as [[C|C]|C].
  - pose proof (double_nearest_pos (- x) (- y) ltac:(lra) (is_double_opp _ D)) as H. rewrite double_opp in H.
    rewrite <- (Qabs_opp (double x - x)), <- (Qabs_opp (y - x)).
    setoid_replace (- (double x - x)) with (- double x - - x) by ring. now setoid_replace (- (y - x)) with (- y - - x) by ring.
  - now apply double_nearest_pos.
  - rewrite double_zero, C by exact C. apply Qabs_nonneg.
Qed.

Lemma double_fixed x : is_double x -> double x == x.
Proof.
  intros D. pose proof (double_nearest x x D) as H. setoid_replace (x - x) with 0 in H by ring. change (Qabs 0) with 0 in H.
  apply Qabs_Qle_condition in H. lra.
Qed.
Lemma double_mono x y : x <= y -> double x <= double y.
Proof.
  intros L. apply Qnot_lt_le. intros K.
  pose proof (double_nearest x (double y) (double_is_double y)) as A. pose proof (double_nearest y (double x) (double_is_double x)) as B.
  assert (E : x == y); [|rewrite E in K; lra].
  revert A B. apply Qabs_case; intros ?; apply Qabs_case; intros ? A; apply Qabs_case; intros ?; apply Qabs_case; intros ? B; lra.
Qed.
Lemma double_nonneg x : 0 <= x -> 0 <= double x.
Proof. intros H. rewrite <- (double_zero 0 (Qeq_refl 0)). now apply double_mono. Qed.
Lemma double_ge x y : is_double x -> x <= y -> x <= double y.
Proof. intros D L. rewrite <- (double_fixed x D). now apply double_mono. Qed.
Lemma double_le x y : is_double y -> x <= y -> double x <= y.
Proof. intros D L. rewrite <- (double_fixed y D). now apply double_mono. Qed.

(** Half a unit in the last place. *)
Definition unit_roundoff : Q := 1 # 9007199254740992.
Definition smallest : Q := 2 ^ (-1075).
Lemma double_error x : Qabs (double x - x) <= unit_roundoff * Qabs x + smallest.
Proof.
  assert (Pos : forall x, 0 < x -> Qabs (double x - x) <= unit_roundoff * x + smallest).
  { clear x. intros x P. destruct (significand x P) as (E & Q1 & Q2 & Q3). cbv zeta in *. pose proof (two_pos (last_bit x)) as T.
    set (b := last_bit x) in *. set (q := x / 2 ^ b) in *.
    assert (H : Qabs (double x - x) <= (1 # 2) * 2 ^ b).
    { rewrite (double_of_pos x P). fold b. fold q. rewrite E. setoid_replace (inject_Z (round_even q) * 2 ^ b - q * 2 ^ b) with ((inject_Z (round_even q) - q) * 2 ^ b) by ring.
      rewrite Qabs_Qmult, (Qabs_pos (2 ^ b)) by lra. apply Qmult_le_compat_r; [|lra]. apply Qabs_Qle_condition. apply round_even_near. }
    apply Qle_trans with (1 := H). destruct (Z.eq_dec b (-1074)) as [B|B].
    - rewrite B. assert (S : (1 # 2) * 2 ^ (-1074) == smallest) by reflexivity. rewrite S. assert (0 < unit_roundoff * x) by (unfold unit_roundoff; lra). lra.
    - assert (L : (-1074 < b)%Z) by (pose proof (last_bit_ge x); unfold b in *; lia). specialize (Q3 L).
      assert (0 < smallest) by reflexivity. assert ((1 # 2) * 2 ^ b <= unit_roundoff * x); [|lra].
      rewrite E. assert (inject_Z (2 ^ 52) * 2 ^ b <= q * 2 ^ b) by (apply Qmult_le_compat_r; lra).
      change (inject_Z (2 ^ 52)) with 4503599627370496 in *. unfold unit_roundoff. set (z := q * 2 ^ b) in *. set (w := 2 ^ b) in *. clearbody z w. lra. }
  destruct (Q_dec x 0) as [[C|C]|C].
  - pose proof (Pos (- x) ltac:(lra)) as H. rewrite double_opp in H. rewrite (Qabs_neg x) by lra.
    rewrite <- (Qabs_opp (double x - x)). now setoid_replace (- (double x - x)) with (- double x - - x) by ring.
  - rewrite (Qabs_pos x) by lra. now apply Pos.
  - rewrite double_zero, C by exact C. discriminate.
Qed.
Lemma double_bounds x : 0 <= x -> x - (unit_roundoff * x + smallest) <= double x <= x + (unit_roundoff * x + smallest).
Proof. intros P. pose proof (double_error x) as H. rewrite (Qabs_pos x) in H by exact P. apply Qabs_Qle_condition in H. lra. Qed.
