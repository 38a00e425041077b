(** Numbers as they are written and read. *)
From Coq Require Import List Arith Bool QArith Qabs ZArith NArith Qround String Ascii Lia Lqa DecimalString DecimalNat.
From Verif Require Import IntervalModel IntervalProofs ManagerModel GeomModel GeomSpec BoardModel InfraModel InfraSpec.
Import ListNotations.
Open Scope Q_scope.

(** ** Rounding *)

Lemma round_even_bounds x : (Qfloor x <= round_even x <= Qfloor x + 1)%Z.
Proof. unfold round_even. destruct (Qcompare _ _); [destruct (Z.even _)| |]; lia. Qed.

Lemma floor_bounds x : inject_Z (Qfloor x) <= x /\ x < inject_Z (Qfloor x) + 1.
Proof.
  split; [apply Qfloor_le|]. pose proof (Qlt_floor x) as H. rewrite inject_Z_plus in H. exact H.
Qed.

Lemma round_even_near x : - (1 # 2) <= inject_Z (round_even x) - x <= 1 # 2.
Proof.
  destruct (floor_bounds x) as [H1 H2]. unfold round_even.
  destruct (Qcompare (x - inject_Z (Qfloor x)) (1 # 2)) eqn:E.
  - apply Qeq_alt in E. destruct (Z.even _); [lra|]. rewrite inject_Z_plus. change (inject_Z 1) with 1. lra.
  - apply Qlt_alt in E. lra.
  - apply Qgt_alt in E. rewrite inject_Z_plus. change (inject_Z 1) with 1. lra.
Qed.

Lemma round_even_comp x y : x == y -> round_even x = round_even y.
Proof.
  intros E. unfold round_even. assert (F : Qfloor x = Qfloor y) by (now rewrite E). rewrite F.
  assert (C : Qcompare (x - inject_Z (Qfloor y)) (1 # 2) = Qcompare (y - inject_Z (Qfloor y)) (1 # 2)) by (now rewrite E).
  now rewrite C.
Qed.

#[global] Instance round_even_proper : Morphisms.Proper (Morphisms.respectful Qeq eq) round_even.
Proof. exact round_even_comp. Qed.

Lemma round_even_mono x y : x <= y -> (round_even x <= round_even y)%Z.
Proof.
  intros H. pose proof (round_even_bounds x) as Bx. pose proof (round_even_bounds y) as By.
  pose proof (Qfloor_resp_le _ _ H) as F.
  destruct (Z.eq_dec (Qfloor x) (Qfloor y)) as [E|N]; [|lia].
  unfold round_even. rewrite E.
  destruct (Qcompare_spec (x - inject_Z (Qfloor y)) (1 # 2)) as [Cx|Cx|Cx];
  destruct (Qcompare_spec (y - inject_Z (Qfloor y)) (1 # 2)) as [Cy|Cy|Cy];
  try (exfalso; lra); try destruct (Z.even _); lia.
Qed.

Lemma round_even_nonneg x : 0 <= x -> (0 <= round_even x)%Z.
Proof. intros H. exact (round_even_mono 0 x H). Qed.

Lemma round_even_Z n : round_even (inject_Z n) = n.
Proof.
  unfold round_even. rewrite Qfloor_Z.
  assert (C : Qcompare (inject_Z n - inject_Z n) (1 # 2) = Lt) by (apply -> Qlt_alt; lra). now rewrite C.
Qed.

(** ** What is written: the nearest number with six decimals *)

Definition written (x : Q) : Q := signed (Qltb x 0) (inject_Z (round_even (Qabs x * 1000000)) * (1 # 1000000)).

Lemma written_six x : six_decimals (written x).
Proof.
  unfold written, signed, six_decimals. destruct (Qltb x 0).
  - exists (- round_even (Qabs x * 1000000))%Z. rewrite inject_Z_opp. unfold Qdiv. change (/ 1000000) with (1 # 1000000). ring.
  - exists (round_even (Qabs x * 1000000)). reflexivity.
Qed.

Lemma written_near x : Qabs (written x - x) <= micro / 2.
Proof.
  unfold written, signed, micro. pose proof (round_even_near (Qabs x * 1000000)) as [H1 H2].
  set (n := inject_Z (round_even (Qabs x * 1000000))) in *. clearbody n.
  change ((1 # 1000000) / 2) with (1 # 2000000).
  destruct (Qltb x 0) eqn:E.
  - apply Qltb_lt in E. rewrite (Qabs_neg x) in H1, H2 by lra. apply Qabs_Qle_condition. lra.
  - apply Qltb_ge in E. rewrite (Qabs_pos x) in H1, H2 by lra. apply Qabs_Qle_condition. lra.
Qed.

Lemma written_mono x y : x <= y -> written x <= written y.
Proof.
  intros H. unfold written, signed. destruct (Qltb x 0) eqn:Ex; destruct (Qltb y 0) eqn:Ey;
  try apply Qltb_lt in Ex; try apply Qltb_ge in Ex; try apply Qltb_lt in Ey; try apply Qltb_ge in Ey.
  - rewrite (Qabs_neg x), (Qabs_neg y) by lra.
    assert (Z : (round_even (- y * 1000000) <= round_even (- x * 1000000))%Z) by (apply round_even_mono; lra).
    rewrite Zle_Qle in Z. lra.
  - assert (Z : (0 <= round_even (Qabs x * 1000000))%Z) by (apply round_even_nonneg; pose proof (Qabs_nonneg x); lra).
    assert (Z' : (0 <= round_even (Qabs y * 1000000))%Z) by (apply round_even_nonneg; pose proof (Qabs_nonneg y); lra).
    rewrite Zle_Qle in Z, Z'. change (inject_Z 0) with 0 in Z, Z'. lra.
  - exfalso. lra.
  - rewrite (Qabs_pos x), (Qabs_pos y) by lra.
    assert (Z : (round_even (x * 1000000) <= round_even (y * 1000000))%Z) by (apply round_even_mono; lra).
    rewrite Zle_Qle in Z. lra.
Qed.

Lemma written_id x : six_decimals x -> written x == x.
Proof.
  intros [n E]. unfold written, signed.
  assert (R : round_even (Qabs x * 1000000) = Z.abs n).
  { rewrite <- (round_even_Z (Z.abs n)). apply round_even_comp. rewrite E. rewrite <- (Qabs_pos 1000000) at 2 by discriminate.
    rewrite <- Qabs_Qmult. assert (F : inject_Z n / 1000000 * 1000000 == inject_Z n) by field. rewrite F. reflexivity. }
  rewrite R. destruct (Qltb x 0) eqn:L.
  - apply Qltb_lt in L. assert (N : (n <= 0)%Z).
    { destruct (Z_le_gt_dec n 0) as [|G]; [assumption|exfalso]. assert (P : 0 <= inject_Z n) by (change 0 with (inject_Z 0); rewrite <- Zle_Qle; lia).
      assert (T : inject_Z n / 1000000 == inject_Z n * (1 # 1000000)) by reflexivity. rewrite E, T in L. lra. }
    rewrite Z.abs_neq by lia. rewrite inject_Z_opp, E. unfold Qdiv. change (/ 1000000) with (1 # 1000000). ring.
  - apply Qltb_ge in L. assert (N : (0 <= n)%Z).
    { destruct (Z_lt_ge_dec n 0) as [G|]; [exfalso|lia]. assert (P : inject_Z n < 0) by (change 0 with (inject_Z 0); rewrite <- Zlt_Qlt; lia).
      assert (T : inject_Z n / 1000000 == inject_Z n * (1 # 1000000)) by reflexivity. rewrite E, T in L. lra. }
    rewrite Z.abs_eq by lia. rewrite E. reflexivity.
Qed.

(** ** Digits *)

Lemma digit_of_char d : (0 <= d < 10)%Z -> digit_of (digit_char d) = Some d.
Proof.
  intros H. assert (C : (d = 0 \/ d = 1 \/ d = 2 \/ d = 3 \/ d = 4 \/ d = 5 \/ d = 6 \/ d = 7 \/ d = 8 \/ d = 9)%Z) by lia.
  repeat (destruct C as [->|C]; [reflexivity|]). now subst.
Qed.

Lemma value_acc l a : fold_left (fun a d => (10 * a + d)%Z) l a = (a * 10 ^ Z.of_nat (List.length l) + value_of l)%Z.
Proof.
  unfold value_of. revert a. induction l as [|x l IH]; intros a; cbn [fold_left List.length].
  - cbn. lia.
  - rewrite IH, (IH (10 * 0 + x)%Z). rewrite Nat2Z.inj_succ, Z.pow_succ_r by lia. ring.
Qed.
Lemma value_app l l' : value_of (l ++ l') = (value_of l * 10 ^ Z.of_nat (List.length l') + value_of l')%Z.
Proof. unfold value_of at 1. rewrite fold_left_app. rewrite value_acc. reflexivity. Qed.
Lemma value_cons d l : value_of (d :: l) = (d * 10 ^ Z.of_nat (List.length l) + value_of l)%Z.
Proof. change (d :: l) with ([d] ++ l). now rewrite value_app. Qed.

Lemma take_digits_digit d s : (0 <= d < 10)%Z ->
  take_digits (String (digit_char d) s) = (d :: fst (take_digits s), snd (take_digits s)).
Proof. intros H. cbn [take_digits]. rewrite digit_of_char by assumption. now destruct (take_digits s). Qed.

Lemma print_digits_take fuel : forall n tail, (0 <= n < 10 ^ (Z.of_nat fuel + 1))%Z ->
  exists l, l <> [] /\ value_of l = n
    /\ take_digits (print_digits fuel n tail) = (l ++ fst (take_digits tail), snd (take_digits tail)).
Proof.
  induction fuel as [|fuel IH]; intros n tail H; cbn [print_digits].
  - assert (D : (0 <= n mod 10 < 10)%Z) by (apply Z.mod_pos_bound; lia).
    exists [(n mod 10)%Z]. split; [discriminate|]. split; [|now rewrite take_digits_digit].
    cbn in *. rewrite Z.mod_small; lia.
  - assert (D : (0 <= n mod 10 < 10)%Z) by (apply Z.mod_pos_bound; lia).
    assert (E : (n = 10 * (n / 10) + n mod 10)%Z) by (apply Z.div_mod; lia).
    destruct (Z.eqb_spec (n / 10) 0) as [Z0|NZ].
    + exists [(n mod 10)%Z]. split; [discriminate|]. split; [cbn [value_of fold_left]; lia|now rewrite take_digits_digit].
    + destruct (IH (n / 10)%Z (String (digit_char (n mod 10)) tail)) as (l & N & V & T).
      { split; [apply Z.div_pos; lia|]. apply Z.div_lt_upper_bound; [lia|].
        rewrite Nat2Z.inj_succ in H. replace (Z.succ (Z.of_nat fuel) + 1)%Z with (Z.succ (Z.of_nat fuel + 1)) in H by lia.
        rewrite Z.pow_succ_r in H by lia. lia. }
      exists (l ++ [(n mod 10)%Z]). split; [now destruct l|]. split.
      * rewrite value_app, V. cbn. lia.
      * rewrite T, take_digits_digit by assumption. cbn [fst snd]. now rewrite <- app_assoc.
Qed.

Lemma pow2_10 k : (0 <= k)%Z -> (2 ^ k <= 10 ^ k)%Z.
Proof. intros H. apply Z.pow_le_mono_l. lia. Qed.

Lemma print_whole_take n tail : (0 <= n)%Z ->
  exists l, l <> [] /\ value_of l = n
    /\ take_digits (print_whole n tail) = (l ++ fst (take_digits tail), snd (take_digits tail)).
Proof.
  intros H. unfold print_whole. apply print_digits_take. split; [assumption|].
  rewrite Z2Nat.id by apply Z.log2_nonneg.
  destruct (Z.eq_dec n 0) as [->|N]; [reflexivity|].
  destruct (Z.log2_spec n) as [_ L]; [lia|].
  apply Z.lt_le_trans with (1 := L). change (Z.succ (Z.log2 n)) with (Z.log2 n + 1)%Z.
  apply pow2_10. pose proof (Z.log2_nonneg n). lia.
Qed.

Lemma print_padded_take k : forall n tail, (0 <= n < 10 ^ Z.of_nat k)%Z ->
  exists l, List.length l = k /\ value_of l = n
    /\ take_digits (print_padded k n tail) = (l ++ fst (take_digits tail), snd (take_digits tail)).
Proof.
  induction k as [|k IH]; intros n tail H; cbn [print_padded].
  - exists []. cbn in *. split; [reflexivity|]. split; [unfold value_of; cbn; lia|now destruct (take_digits tail)].
  - assert (D : (0 <= n mod 10 < 10)%Z) by (apply Z.mod_pos_bound; lia).
    assert (E : (n = 10 * (n / 10) + n mod 10)%Z) by (apply Z.div_mod; lia).
    rewrite Nat2Z.inj_succ, Z.pow_succ_r in H by lia.
    destruct (IH (n / 10)%Z (String (digit_char (n mod 10)) tail)) as (l & N & V & T).
    { split; [apply Z.div_pos; lia|]. apply Z.div_lt_upper_bound; lia. }
    exists (l ++ [(n mod 10)%Z]). rewrite app_length, N. split; [cbn; lia|]. split.
    + rewrite value_app, V. cbn. lia.
    + rewrite T, take_digits_digit by assumption. cbn [fst snd]. now rewrite <- app_assoc.
Qed.

(** ** Reading back what was written *)

Lemma digit_dot : digit_of "." = None. Proof. reflexivity. Qed.
Lemma digit_sign c : digit_of c <> None -> c <> "-"%char /\ c <> "+"%char /\ c <> ","%char.
Proof. intros H. repeat split; intros ->; apply H; reflexivity. Qed.
Lemma take_sign_other plus c s : c <> "-"%char -> c <> "+"%char -> take_sign plus (String c s) = (false, String c s).
Proof.
  intros A B. destruct c as [[] [] [] [] [] [] [] []]; try reflexivity; exfalso; [apply B|apply A]; reflexivity.
Qed.

Lemma take_digits_head s : fst (take_digits s) <> [] -> exists c t, s = String c t /\ digit_of c <> None.
Proof.
  destruct s as [|c t]; cbn [take_digits]; [now intros []|].
  destruct (digit_of c) eqn:E; [|now intros []]. intros _. exists c, t. split; [reflexivity|now rewrite E].
Qed.

Definition magnitude_text (n : Z) : string := print_whole (n / 1000000) (String "." (print_padded 6 (n mod 1000000) "")).

Lemma power_micro : Qpower 10 (0 - Z.of_nat 6) == 1 # 1000000.
Proof. reflexivity. Qed.

Lemma magnitude_read n : (0 <= n)%Z ->
  exists v, unsigned_decimal (magnitude_text n) = Some v /\ v == inject_Z n * (1 # 1000000).
Proof.
  intros H. unfold magnitude_text.
  destruct (print_whole_take (n / 1000000) (String "." (print_padded 6 (n mod 1000000) ""))) as (l & N & V & T).
  { apply Z.div_pos; lia. }
  destruct (print_padded_take 6 (n mod 1000000) "") as (f & L & F & U).
  { change (10 ^ Z.of_nat 6)%Z with 1000000%Z. apply Z.mod_pos_bound. lia. }
  unfold unsigned_decimal. rewrite T. cbn [take_digits]. rewrite digit_dot. cbn [fst snd]. rewrite U.
  cbn [take_digits fst snd]. rewrite !app_nil_r.
  destruct l as [|d l]; [congruence|]. cbn [app]. eexists. split; [reflexivity|].
  cbn [take_exponent]. rewrite L, power_micro.
  change (d :: l ++ f) with ((d :: l) ++ f). rewrite value_app, V, F, L.
  change (10 ^ Z.of_nat 6)%Z with 1000000%Z.
  rewrite (Z.mul_comm (n / 1000000)), <- Z.div_mod by lia. reflexivity.
Qed.

Lemma magnitude_head n : (0 <= n)%Z -> exists c t, magnitude_text n = String c t /\ digit_of c <> None.
Proof.
  intros H. apply take_digits_head. unfold magnitude_text.
  destruct (print_whole_take (n / 1000000) (String "." (print_padded 6 (n mod 1000000) ""))) as (l & N & _ & T).
  { apply Z.div_pos; lia. }
  rewrite T. cbn [fst]. now destruct l.
Qed.

Lemma round_nonneg x : (0 <= round_even (Qabs x * 1000000))%Z.
Proof. apply round_even_nonneg. pose proof (Qabs_nonneg x). lra. Qed.

Lemma from_chars_to_string x : exists v, from_chars (to_string x) = Some v /\ v == written x.
Proof.
  pose proof (round_nonneg x) as N. destruct (magnitude_read _ N) as (v & R & V).
  destruct (magnitude_head _ N) as (c & t & E & D). destruct (digit_sign _ D) as (D1 & D2 & _).
  unfold to_string. fold (magnitude_text (round_even (Qabs x * 1000000))).
  unfold from_chars, written. destruct (Qltb x 0).
  - cbn [take_sign]. rewrite R. cbn [option_map signed]. eexists. split; [reflexivity|]. cbn. now rewrite V.
  - rewrite E, take_sign_other, <- E, R by assumption. cbn [option_map]. eexists. split; [reflexivity|]. exact V.
Qed.

(** [as_double] reads the same. *)
Lemma digit_not_space c : digit_of c <> None -> is_space c = false.
Proof. intros H. destruct c as [[] [] [] [] [] [] [] []]; try reflexivity; exfalso; apply H; reflexivity. Qed.

Lemma to_double_to_string x : to_double (to_string x) == written x.
Proof.
  pose proof (round_nonneg x) as N. destruct (magnitude_read _ N) as (v & R & V).
  destruct (magnitude_head _ N) as (c & t & E & D). destruct (digit_sign _ D) as (D1 & D2 & _).
  unfold to_string. fold (magnitude_text (round_even (Qabs x * 1000000))).
  unfold to_double, written. destruct (Qltb x 0).
  - cbn [skip_spaces is_space take_sign]. cbn. rewrite R. cbn [signed]. now rewrite V.
  - rewrite E. cbn [skip_spaces]. rewrite (digit_not_space _ D), take_sign_other, <- E, R by assumption. exact V.
Qed.

(** ** Commas *)

Fixpoint free (s : string) : bool := match s with EmptyString => true | String c r => negb (Ascii.eqb c ",") && free r end.

Lemma digit_char_free d : (0 <= d < 10)%Z -> Ascii.eqb (digit_char d) "," = false.
Proof.
  intros H. destruct (Ascii.eqb_spec (digit_char d) ","); [|reflexivity].
  pose proof (digit_of_char d H) as D. rewrite e in D. discriminate D.
Qed.
Lemma print_digits_free fuel : forall n tail, free tail = true -> free (print_digits fuel n tail) = true.
Proof.
  induction fuel as [|fuel IH]; intros n tail F; cbn [print_digits];
  (assert (D : (0 <= n mod 10 < 10)%Z) by (apply Z.mod_pos_bound; lia)).
  - cbn [free]. now rewrite digit_char_free, F.
  - destruct (n / 10 =? 0)%Z; [|apply IH]; cbn [free]; now rewrite digit_char_free, F.
Qed.
Lemma print_padded_free k : forall n tail, free tail = true -> free (print_padded k n tail) = true.
Proof.
  induction k as [|k IH]; intros n tail F; cbn [print_padded]; [assumption|].
  assert (D : (0 <= n mod 10 < 10)%Z) by (apply Z.mod_pos_bound; lia).
  apply IH. cbn [free]. now rewrite digit_char_free, F.
Qed.
Lemma to_string_free x : free (to_string x) = true.
Proof.
  unfold to_string. assert (F : free (magnitude_text (round_even (Qabs x * 1000000))) = true).
  { unfold magnitude_text, print_whole. apply print_digits_free. cbn [free]. now rewrite print_padded_free. }
  unfold magnitude_text in F. destruct (Qltb x 0); [cbn [free]|]; exact F.
Qed.
Lemma to_string_filled x : to_string x <> ""%string.
Proof.
  unfold to_string. destruct (Qltb x 0); [discriminate|].
  destruct (magnitude_head _ (round_nonneg x)) as (c & t & E & _). unfold magnitude_text in E. rewrite E. discriminate.
Qed.

Lemma str_app_assoc (a b c : string) : ((a ++ b) ++ c)%string = (a ++ (b ++ c))%string.
Proof. induction a; cbn; congruence. Qed.
Lemma str_app_nil (a : string) : (a ++ "")%string = a.
Proof. induction a; cbn; congruence. Qed.

Lemma split_loop_last a : forall acc, free a = true -> split_loop a acc = [(acc ++ a)%string].
Proof.
  induction a as [|c a IH]; intros acc F; cbn [split_loop]; [now rewrite str_app_nil|].
  cbn [free] in F. apply andb_prop in F as [F1 F2]. apply negb_true_iff in F1. rewrite F1, IH by assumption.
  now rewrite str_app_assoc.
Qed.
Lemma split_loop_comma a r : forall acc, free a = true ->
  split_loop (a ++ String "," r) acc = (acc ++ a)%string :: split_loop r "".
Proof.
  induction a as [|c a IH]; intros acc F; cbn [append split_loop].
  - change (Ascii.eqb "," ",") with true. cbn iota. now rewrite str_app_nil.
  - cbn [free] in F. apply andb_prop in F as [F1 F2]. apply negb_true_iff in F1. rewrite F1, IH by assumption.
    now rewrite str_app_assoc.
Qed.

Lemma split_join l : (forall s, In s l -> free s = true /\ s <> ""%string) -> split (join l) = l.
Proof.
  intros H. destruct l as [|x l]; [reflexivity|].
  assert (N : join (x :: l) <> ""%string).
  { destruct (H x) as [_ N]; [now left|]. destruct x; [congruence|]. cbn. destruct l; discriminate. }
  unfold split. destruct (join (x :: l)) as [|c s] eqn:E; [congruence|]. rewrite <- E. clear c s E N.
  revert x H. induction l as [|y l IH]; intros x H.
  - cbn [join]. rewrite split_loop_last; [reflexivity|]. now destruct (H x); [left|].
  - change (join (x :: y :: l)) with (x ++ String "," (join (y :: l)))%string.
    rewrite split_loop_comma; [|now destruct (H x); [left|]]. cbn [append]. f_equal. apply IH. intros s I. apply H. now right.
Qed.

(** ** Natural numbers in decimal, as the standard library writes them *)

Lemma digits_uint d : forall a,
  fold_left (fun a d => (10 * a + d)%Z) (fst (take_digits (NilEmpty.string_of_uint d))) (Z.of_nat a) = Z.of_nat (Nat.of_uint_acc d a).
Proof.
  induction d as [|d IH|d IH|d IH|d IH|d IH|d IH|d IH|d IH|d IH|d IH]; intros a; [reflexivity|..];
  cbn [NilEmpty.string_of_uint take_digits Nat.of_uint_acc];
  match goal with |- context [digit_of ?c] => let x := eval vm_compute in (digit_of c) in change (digit_of c) with x end;
  destruct (take_digits (NilEmpty.string_of_uint d)) as [l t]; cbn [fst fold_left] in *; rewrite <- IH; f_equal;
  rewrite Nat.tail_mul_spec; lia.
Qed.

Lemma uint_head d : NilEmpty.string_of_uint d = ""%string \/ exists c t, NilEmpty.string_of_uint d = String c t /\ digit_of c <> None.
Proof. destruct d; cbn; [now left|..]; right; eexists _, _; (split; [reflexivity|vm_compute; discriminate]). Qed.

Lemma to_uint_decimal uint_max k : (k <= uint_max)%nat -> to_uint uint_max (NilEmpty.string_of_uint (Nat.to_uint k)) = k.
Proof.
  intros L. unfold to_uint.
  assert (E : take_sign true (skip_spaces (NilEmpty.string_of_uint (Nat.to_uint k))) = (false, NilEmpty.string_of_uint (Nat.to_uint k))).
  { destruct (uint_head (Nat.to_uint k)) as [->|(c & t & -> & D)]; [reflexivity|].
    cbn [skip_spaces]. rewrite digit_not_space by assumption. destruct (digit_sign c D) as (A & B & _). now apply take_sign_other. }
  rewrite E. unfold value_of. pose proof (digits_uint (Nat.to_uint k) 0) as V. cbn [Z.of_nat] in V. rewrite V, Nat2Z.id.
  change (Nat.of_uint_acc (Nat.to_uint k) 0) with (Nat.of_uint (Nat.to_uint k)). rewrite Unsigned.of_to. lia.
Qed.
