(** Lemmas about the progress bars. *)
From Coq Require Import List Bool Arith Lia.
From Verif Require Import ProgressModel ProgressSpec.
Import ListNotations.

Lemma sum_app : forall a b, sum (a ++ b) = sum a + sum b.
Proof. induction a; cbn; intros; [reflexivity|rewrite IHa; lia]. Qed.

Lemma fold_count : forall {X} (f : X -> nat) l c,
  fold_left (fun c x => (fst c + f x, S (snd c))) l c = (fst c + sum (map f l), snd c + length l).
Proof.
  intros X f. induction l as [|x l IH]; intros [a b]; cbn [fold_left map sum length fst snd].
  - f_equal; lia.
  - rewrite IH. cbn [fst snd]. f_equal; lia.
Qed.

Lemma sum_ones : forall l, sum (map one l) = how_many l.
Proof. induction l as [|[] l IH]; cbn; unfold how_many in *; cbn; lia. Qed.

Lemma how_many_app : forall a b, how_many (a ++ b) = how_many a + how_many b.
Proof. intros. unfold how_many. rewrite filter_app, app_length. reflexivity. Qed.

Definition terms (t : list told) : list nat := map terminal t.
Definition founds (t : list told) : list nat := flat_map (fun t => match t with One _ => [] | Two f _ => [f] end) t.

Lemma founds_app : forall a b, founds (a ++ b) = founds a ++ founds b.
Proof. intros. unfold founds. apply flat_map_app. Qed.

(** ** One tick per thing *)
Lemma adjust_edges_is : forall l c,
  terms (fst (adjust_edges l c)) = seq (S (snd c)) (length l) /\
  snd (adjust_edges l c) = (fst c + how_many l, snd c + length l) /\
  (l <> [] -> exists f, founds (fst (adjust_edges l c)) = f ++ [fst c + how_many l]) /\
  length (founds (fst (adjust_edges l c))) = length l.
Proof.
  induction l as [|b l IH]; intros [a k]; cbn [adjust_edges length seq fst snd].
  - repeat apply conj; try reflexivity; [f_equal; cbn; lia|congruence].
  - destruct (IH (a + one b, S k)) as (I1 & I2 & I3 & I4).
    cbn [fst snd] in *.
    destruct (adjust_edges l (a + one b, S k)) as [t c'] eqn:E. cbn [fst snd] in *.
    assert (W : how_many (b :: l) = one b + how_many l) by (unfold how_many; destruct b; reflexivity).
    repeat apply conj.
    + unfold terms in *. cbn [map terminal]. rewrite I1. reflexivity.
    + rewrite I2, W. f_equal; lia.
    + intros _. destruct l as [|b' l].
      * cbn in E. injection E as <- <-. exists []. rewrite W. cbn. repeat f_equal; lia.
      * destruct (I3 ltac:(discriminate)) as [f F]. exists ((a + one b) :: f).
        cbn [founds flat_map app]. fold founds. unfold founds in F. rewrite F, W. cbn [app]. do 3 f_equal. lia.
    + cbn [founds flat_map app length]. unfold founds in I4. rewrite I4. reflexivity.
Qed.

Lemma adjust_polygons_is : forall ps c,
  adjust_polygons ps c = adjust_edges (concat ps) c.
Proof.
  assert (A : forall l r c, adjust_edges (l ++ r) c =
    (fst (adjust_edges l c) ++ fst (adjust_edges r (snd (adjust_edges l c))), snd (adjust_edges r (snd (adjust_edges l c))))).
  { induction l as [|b l IH]; intros r c; cbn [adjust_edges app fst snd].
    - destruct (adjust_edges r c); reflexivity.
    - rewrite IH. destruct (adjust_edges l (fst c + one b, S (snd c))) as [t c'].
      cbn [fst snd app]. reflexivity. }
  induction ps as [|p ps IH]; intros c; cbn [adjust_polygons concat]; [reflexivity|].
  rewrite A, <- !IH. destruct (adjust_edges p c) as [t c1]. cbn [fst snd].
  destruct (adjust_polygons ps c1); reflexivity.
Qed.

Lemma ticks_pre_is : forall n i, terms (fst (ticks_pre n i)) = seq (S (S i)) n /\ snd (ticks_pre n i) = i + n.
Proof.
  induction n; intros i; cbn [ticks_pre seq]; [split; [reflexivity|cbn; lia]|].
  destruct (IHn (S i)) as [I1 I2]. destruct (ticks_pre n (S i)) as [t i'] eqn:E. cbn [fst snd] in *.
  split; [unfold terms in *; cbn [map terminal]; rewrite I1; reflexivity|lia].
Qed.

Lemma ticks_post_is : forall n i, terms (ticks_post n i) = seq (S i) n.
Proof. induction n; intros i; cbn; [reflexivity|]. f_equal. apply IHn. Qed.

(** ** Rows *)
Lemma pairs_is : forall f as_ bs c,
  terms (fst (pairs f as_ bs c)) = map (fun a => snd c + S a * length bs) (seq 0 (length as_)) /\
  (as_ <> [] -> exists l, founds (fst (pairs f as_ bs c)) = l ++ [fst c + sum (map (fun a => sum (map (f a) bs)) as_)]).
Proof.
  intros f. induction as_ as [|a as_ IH]; intros bs c; cbn [pairs length seq map]; [split; [reflexivity|congruence]|].
  rewrite fold_count. cbn [fst snd].
  destruct (IH bs (fst c + sum (map (f a) bs), snd c + length bs)) as [I1 I2].
  destruct (pairs f as_ bs _) as [t c'] eqn:E. cbn [fst snd] in *. split.
  - unfold terms in *. cbn [map terminal]. rewrite I1, <- seq_shift, map_map. f_equal; [lia|].
    apply map_ext. intros x. lia.
  - intros _. destruct as_ as [|a' as_].
    + cbn in E. injection E as <- <-. exists []. cbn. repeat f_equal; lia.
    + destruct (I2 ltac:(discriminate)) as [l L]. exists ((fst c + sum (map (f a) bs)) :: l).
      cbn [founds flat_map app]. unfold founds in L. rewrite L. cbn [app map sum]. do 3 f_equal. lia.
Qed.

Lemma per_zone_is : forall n g zs c, per_zone n g zs c = pairs (fun z i => one (g z i)) zs (seq 0 n) c.
Proof. intros n g. induction zs as [|z zs IH]; intros c; cbn [per_zone pairs]; [reflexivity|]. rewrite IH. reflexivity. Qed.

(** ** Rising and bounded *)
Lemma rising_app : forall a b, rising a -> rising b -> (forall x y, In x a -> In y b -> x <= y) -> rising (a ++ b).
Proof.
  induction a as [|x a IH]; intros b A B C; [exact B|].
  destruct a as [|y a].
  - destruct b as [|y b]; [exact I|]. split; [apply C; left; reflexivity|exact B].
  - destruct A as [A1 A2]. split; [exact A1|]. apply (IH b A2 B). intros u v U V. apply C; [right; exact U|exact V].
Qed.
Lemma rising_map_seq : forall f n i, (forall a, f a <= f (S a)) -> rising (map f (seq i n)).
Proof.
  intros f. induction n as [|n IH]; intros i M; cbn; [exact I|].
  destruct n as [|n]; [exact I|]. split; [apply M|]. apply (IH (S i) M).
Qed.
Lemma rising_seq : forall n i, rising (seq i n).
Proof. intros. rewrite <- (map_id (seq i n)). apply rising_map_seq. intros; lia. Qed.
Lemma seq_last : forall n i, seq i (S n) = seq i n ++ [i + n].
Proof. intros. apply seq_S. Qed.

(** ** Colinear edges *)
Lemma colinear_is : forall f diags i c,
  length (terms (fst (colinear_from f i diags c))) = length diags /\
  rising (terms (fst (colinear_from f i diags c))) /\
  (forall x, In x (terms (fst (colinear_from f i diags c))) -> snd c <= x <= snd (snd (colinear_from f i diags c))) /\
  2 * snd (snd (colinear_from f i diags c)) + length diags = 2 * snd c + length diags * length diags /\
  (diags <> [] -> exists l, terms (fst (colinear_from f i diags c)) = l ++ [snd (snd (colinear_from f i diags c))]) /\
  (forall d r, diags = d :: r -> exists l, terms (fst (colinear_from f i diags c)) = (snd c + length r) :: l).
Proof.
  intros f. induction diags as [|d r IH]; intros i c.
  - cbn. repeat apply conj; try exact I; try reflexivity; try contradiction; try congruence; lia.
  - cbn [colinear_from].
    set (c1 := if d then (fst c, snd c + length r) else _).
    assert (K : snd c1 = snd c + length r).
    { subst c1. destruct d; [reflexivity|]. rewrite fold_count. cbn [snd]. rewrite seq_length. reflexivity. }
    destruct (IH (S i) c1) as (I1 & I2 & I3 & I4 & I5 & I6).
    destruct (colinear_from f (S i) r c1) as [t c'] eqn:E. cbn [fst snd] in *.
    unfold terms in *. cbn [map terminal length].
    repeat apply conj.
    + rewrite I1. reflexivity.
    + destruct r as [|d' r]; [cbn in E; injection E as <- <-; exact I|].
      destruct (I6 d' r eq_refl) as [l L]. rewrite L in *. split; [lia|exact I2].
    + intros x [<-|X]; [|specialize (I3 x X); lia].
      split; [lia|]. destruct r as [|d' r]; [cbn in E; injection E as <- <-; lia|].
      destruct (I6 d' r eq_refl) as [l L]. rewrite L in I3. specialize (I3 _ (or_introl eq_refl)). lia.
    + nia.
    + intros _. destruct r as [|d' r]; [cbn in E; injection E as <- <-; exists []; reflexivity|].
      destruct (I5 ltac:(discriminate)) as [l L]. exists (snd c1 :: l). rewrite L. reflexivity.
    + intros d0 r0 [= <- <-]. exists (map terminal t). rewrite K. reflexivity.
Qed.

Lemma halved : forall e k, 2 * k + e = e * e -> (e * e - e) / 2 = k.
Proof. intros e k H. symmetry; apply Nat.div_unique_exact; lia. Qed.

(** ** Ranges and zones *)
Lemma ranges_is : forall n c, terms (fst (ranges n c)) = seq (snd c) n /\ snd (ranges n c) = (fst c, snd c + n).
Proof.
  induction n; intros c; cbn [ranges seq]; [split; [reflexivity|destruct c; cbn; f_equal; lia]|].
  destruct (IHn (fst c, S (snd c))) as [I1 I2]. destruct (ranges n (fst c, S (snd c))) as [t c'] eqn:E. cbn [fst snd] in *.
  split; [unfold terms in *; cbn [map terminal]; rewrite I1; reflexivity|rewrite I2; f_equal; lia].
Qed.

(** ** Diagonal angles *)
Lemma corners_is : forall ps c,
  length (fst (corners ps c)) = length ps /\
  snd (snd (corners ps c)) = snd c + length (concat ps) /\
  rising (terms (fst (corners ps c))) /\
  (forall x, In x (terms (fst (corners ps c))) -> snd c <= x <= snd (snd (corners ps c))).
Proof.
  induction ps as [|p ps IH]; intros c; cbn [corners concat].
  - cbn. repeat apply conj; try exact I; try reflexivity; try contradiction; lia.
  - rewrite fold_count. destruct (IH (fst c + sum (map one p), snd c + length p)) as (I1 & I2 & I3 & I4).
    destruct (corners ps _) as [t c'] eqn:E. cbn [fst snd] in *. unfold terms in *. cbn [map terminal length].
    rewrite app_length. repeat apply conj; try lia.
    + destruct (map terminal t) as [|y r] eqn:M; [exact I|]. split; [apply (I4 y); left; reflexivity|exact I3].
    + intros x [<-|X]; [lia|]. specialize (I4 x X). lia.
Qed.

Lemma against_is : forall cross qs j0 c, snd (against cross j0 qs c) = snd c + length (concat qs).
Proof.
  intros cross qs j0 c. unfold against. revert j0 c.
  induction qs as [|q qs IH]; intros j0 c; cbn [fold_left concat fst snd]; [cbn; lia|].
  rewrite fold_count. rewrite IH. cbn [snd fst]. rewrite app_length, seq_length. lia.
Qed.

Lemma cross_edges_is : forall cross j0 qs ls c,
  length (fst (cross_edges cross ls j0 qs c)) = length ls /\
  snd (snd (cross_edges cross ls j0 qs c)) = snd c + length ls * length (concat qs) /\
  rising (terms (fst (cross_edges cross ls j0 qs c))) /\
  (forall x, In x (terms (fst (cross_edges cross ls j0 qs c))) -> snd c <= x <= snd (snd (cross_edges cross ls j0 qs c))) /\
  (ls <> [] -> exists l, terms (fst (cross_edges cross ls j0 qs c)) = l ++ [snd (snd (cross_edges cross ls j0 qs c))]).
Proof.
  intros cross j0 qs. induction ls as [|l ls IH]; intros c; cbn [cross_edges].
  - cbn. repeat apply conj; try exact I; try reflexivity; try contradiction; try congruence; lia.
  - pose proof (against_is (cross l) qs j0 c) as K. set (c1 := against (cross l) j0 qs c) in *.
    destruct (IH c1) as (I1 & I2 & I3 & I4 & I5).
    destruct (cross_edges cross ls j0 qs c1) as [t c'] eqn:E. cbn [fst snd] in *. unfold terms in *. cbn [map terminal length].
    repeat apply conj; try lia.
    + destruct (map terminal t) as [|y r] eqn:M; [exact I|]. split; [apply (I4 y); left; reflexivity|exact I3].
    + intros x [<-|X]; [lia|]. specialize (I4 x X). lia.
    + intros _. destruct ls as [|l' ls]; [cbn in E; injection E as <- <-; exists []; reflexivity|].
      destruct (I5 ltac:(discriminate)) as [r R]. exists (snd c1 :: r). rewrite R. reflexivity.
Qed.

Lemma lengths_concat : forall (ps : list (list bool)), length (concat ps) = sum (map (@length bool) ps).
Proof. induction ps as [|p ps IH]; cbn; [reflexivity|]. rewrite app_length, IH. reflexivity. Qed.

Lemma crosses_is : forall cross ps i c,
  length (fst (crosses cross i ps c)) = length (concat ps) /\
  snd (snd (crosses cross i ps c)) = snd c + across (map (@length bool) ps) /\
  rising (terms (fst (crosses cross i ps c))) /\
  (forall x, In x (terms (fst (crosses cross i ps c))) -> snd c <= x <= snd (snd (crosses cross i ps c))) /\
  (concat ps <> [] -> exists l, terms (fst (crosses cross i ps c)) = l ++ [snd (snd (crosses cross i ps c))]).
Proof.
  intros cross. induction ps as [|p ps IH]; intros i c; cbn [crosses concat map across].
  - cbn. repeat apply conj; try exact I; try reflexivity; try contradiction; try congruence; lia.
  - destruct (cross_edges_is (cross i) (S i) ps (seq 0 (length p)) c) as (E1 & E2 & E3 & E4 & E5).
    destruct (cross_edges (cross i) (seq 0 (length p)) (S i) ps c) as [t c1] eqn:E. cbn [fst snd] in *.
    destruct (IH (S i) c1) as (I1 & I2 & I3 & I4 & I5).
    destruct (crosses cross (S i) ps c1) as [t' c2] eqn:E'. cbn [fst snd] in *. unfold terms in *.
    rewrite seq_length in *. rewrite map_app, !app_length. rewrite lengths_concat in E2.
    repeat apply conj; try lia.
    + apply rising_app; [exact E3|exact I3|]. intros x y X Y. specialize (E4 x X). specialize (I4 y Y). lia.
    + intros x X. apply in_app_iff in X as [X|X]; [specialize (E4 x X)|specialize (I4 x X)]; lia.
    + intros NE. destruct (concat ps) as [|b q] eqn:Q.
      * destruct p as [|b p]; [contradiction NE; reflexivity|].
        destruct E5 as [r R]; [discriminate|]. rewrite R.
        destruct t' as [|x t']; [|cbn in I1; discriminate]. exists r. cbn [map]. rewrite app_nil_r.
        assert (K : snd c2 = snd c1); [|rewrite K; reflexivity].
        assert (Z : across (map (@length bool) ps) = 0).
        { clear - Q. induction ps as [|p ps IH]; [reflexivity|]. cbn in Q. apply app_eq_nil in Q as [-> Q].
          cbn [map across length]. rewrite (IH Q). reflexivity. }
        lia.
      * destruct I5 as [r R]; [discriminate|]. exists (map terminal t ++ r). rewrite R. apply app_assoc.
Qed.

Lemma across_squares : forall l, 2 * across l + sum (map (fun n => n * n) l) = sum l * sum l.
Proof. induction l as [|n l IH]; cbn [across map sum]; nia. Qed.

Lemma squares_three : forall l, Forall (fun n => 3 <= n) l -> 3 * sum l <= sum (map (fun n => n * n) l).
Proof. induction l as [|n l IH]; intros H; cbn [map sum]; [lia|]. inversion H; subst. specialize (IH H3). nia. Qed.
Lemma squares_equal : forall l, Forall (fun n => 3 <= n) l -> 3 * sum l = sum (map (fun n => n * n) l) -> Forall (fun n => n = 3) l.
Proof.
  induction l as [|n l IH]; intros H E; [constructor|]. inversion H; subst. cbn [map sum] in E.
  pose proof (squares_three l H3). constructor; [nia|]. apply IH; [exact H3|nia].
Qed.
