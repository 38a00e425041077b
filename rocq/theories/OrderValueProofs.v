(** What the meshing of an interval computes depends on the values of the numbers, not on
    how the fractions are written. *)
From Coq Require Import List Arith Bool Lia QArith Qabs Setoid Morphisms.
From Verif Require Import IntervalModel ManagerModel.
Import ListNotations.
Open Scope Q_scope.

#[global] Instance Qltb_m : Proper (Qeq ==> Qeq ==> eq) Qltb.
Proof. intros a a' A b b' B. unfold Qltb. now rewrite A, B. Qed.
#[global] Instance qmin_m : Proper (Qeq ==> Qeq ==> Qeq) qmin.
Proof. intros a a' A b b' B. unfold qmin. rewrite (Qltb_m _ _ B _ _ A). now destruct (Qltb b' a'). Qed.
#[global] Instance distance_m : Proper (Qeq ==> Qeq ==> Qeq) coord_distance.
Proof. intros a a' A b b' B. unfold coord_distance. now rewrite A, B. Qed.
#[global] Instance mid_m : Proper (Qeq ==> Qeq ==> Qeq) coord_mid.
Proof. intros a a' A b b' B. unfold coord_mid. now rewrite A, B. Qed.

Notation qs := (Forall2 Qeq).

Definition orel {A B} (R : A -> B -> Prop) (o : option A) (o' : option B) : Prop :=
  match o, o' with Some x, Some y => R x y | None, None => True | _, _ => False end.

(** The same policy, interval. *)
Definition ps (p q : mlp) : Prop := p_coord p == p_coord q /\ p_policy p = p_policy q /\ p_normal p = p_normal q /\ p_enabled p = p_enabled q /\ p_d p == p_d q.
Definition ss (s t : side) : Prop := sd_lmin s = sd_lmin t /\ sd_smoothness s == sd_smoothness t /\ qs (sd_ls s) (sd_ls t).
Definition is (i j : interval) : Prop := iv_h i == iv_h j /\ iv_m i == iv_m j /\ iv_dmax i == iv_dmax j /\ ss (iv_before i) (iv_before j) /\ ss (iv_after i) (iv_after j).

Lemma qs_length l l' : qs l l' -> length l = length l'.
Proof. intros F. induction F; cbn; congruence. Qed.

Lemma ps_refl p : ps p p. Proof. now repeat split. Qed.

Lemma set_d_m p q d d' : ps p q -> d == d' -> ps (set_d p d) (set_d q d').
Proof. intros (A & B & C & D & E) F. now repeat split. Qed.

Lemma clamp_m h h' p q : h == h' -> ps p q -> ps (clamp_d h p) (clamp_d h' q).
Proof. intros H P. unfold clamp_d. pose proof P as (_ & _ & _ & _ & D). rewrite (Qltb_m _ _ H _ _ D). destruct (Qltb h' (p_d q)); [now apply set_d_m|exact P]. Qed.

Definition init_m (f : mlp -> Q -> Q) : Prop := forall p q d d', ps p q -> d == d' -> f p d == f q d'.
Lemma before_m : init_m d_init_before.
Proof. intros p q d d' (_ & A & B & _) E. unfold d_init_before. rewrite A, B. destruct (p_policy q); [reflexivity|now rewrite E|destruct (p_normal q); now rewrite ?E]. Qed.
Lemma after_m : init_m d_init_after.
Proof. intros p q d d' (_ & A & B & _) E. unfold d_init_after. rewrite A, B. destruct (p_policy q); [reflexivity|now rewrite E|destruct (p_normal q); now rewrite ?E]. Qed.

Lemma make_m g p q p' q' : ps p p' -> ps q q' -> let '(a, b, iv) := make_interval g p q in let '(a', b', iv') := make_interval g p' q' in ps a a' /\ ps b b' /\ is iv iv'.
Proof.
  intros P R. cbn. pose proof P as (A & _). pose proof R as (B & _). assert (H : calc_h (p_coord p) (p_coord q) == calc_h (p_coord p') (p_coord q')) by (unfold calc_h; now rewrite A, B).
  split; [now apply clamp_m|]. split; [now apply clamp_m|]. split; [exact H|]. split; [cbn; now rewrite A, B|]. repeat split; cbn; try reflexivity; constructor.
Qed.

Lemma next_m s s' m m' d d' : s == s' -> m == m' -> d == d' -> next_space s m d == next_space s' m' d'.
Proof.
  intros A B C. unfold next_space. rewrite (Qltb_m _ _ C _ _ B). destruct (Qltb d' m'); [|exact C].
  assert (E : d * s == d' * s') by now rewrite A, C. cbn. rewrite (Qltb_m _ _ B _ _ E). now destruct (Qltb m' (d' * s')).
Qed.

Lemma find_loop_m n : forall s s' m m' e e' d d' c c', s == s' -> m == m' -> e == e' -> d == d' -> c == c' -> orel qs (find_ls_loop n s m e d c) (find_ls_loop n s' m' e' d' c').
Proof.
  induction n as [|n IH]; intros s s' m m' e e' d d' c c' A B C D E; cbn; [exact I|]. rewrite (Qltb_m _ _ E _ _ C). destruct (Qltb c' e'); [|cbn; constructor].
  pose proof (next_m _ _ _ _ _ _ A B D) as N. assert (F : c + next_space s m d == c' + next_space s' m' d') by now rewrite N, E.
  specialize (IH _ _ _ _ _ _ _ _ _ _ A B C N F). cbn. destruct (find_ls_loop n s m e _ _), (find_ls_loop n s' m' e' _ _); cbn in *; try contradiction; [|exact I]. now constructor.
Qed.
Lemma find_m n d d' s s' m m' e e' : d == d' -> s == s' -> m == m' -> e == e' -> orel qs (find_ls n d s m e) (find_ls n d' s' m' e').
Proof. intros A B C D. apply find_loop_m; try assumption; [now apply qmin_m|reflexivity]. Qed.

Lemma spaces_m s s' m m' : s == s' -> m == m' -> forall l l', qs l l' -> forall a a' b b', a == a' -> b == b' -> spaces_valid s m a b l = spaces_valid s' m' a' b' l'.
Proof.
  intros A B l l' F. induction F as [|c c' l l' C F IH]; intros a a' b b' D E; cbn; [reflexivity|].
  assert (X : Qltb (s * (b - a) + equality_tolerance) (c - b) = Qltb (s' * (b' - a') + equality_tolerance) (c' - b')) by (apply Qltb_m; [now rewrite A, D, E|now rewrite C, E]).
  assert (Y : Qltb (m + equality_tolerance) (c - b) = Qltb (m' + equality_tolerance) (c' - b')) by (apply Qltb_m; [now rewrite B|now rewrite C, E]).
  rewrite X, Y. destruct (_ || _); [reflexivity|]. now apply IH.
Qed.

Lemma valid_m l l' d d' s s' m m' n : qs l l' -> d == d' -> s == s' -> m == m' -> is_ls_valid l d s m n = is_ls_valid l' d' s' m' n.
Proof.
  intros F A B C. unfold is_ls_valid. rewrite (Qltb_m _ _ C _ _ A). rewrite (qs_length _ _ F). destruct F as [|a a' r r' E F]; [reflexivity|]. cbn [length].
  destruct (Qltb m' d' || _ || false); [reflexivity|].
  assert (X : Qltb (s * d + equality_tolerance) a = Qltb (s' * d' + equality_tolerance) a') by (apply Qltb_m; [now rewrite A, B|assumption]).
  assert (Y : Qltb (m + equality_tolerance) a = Qltb (m' + equality_tolerance) a') by (apply Qltb_m; [now rewrite C|assumption]).
  rewrite X, Y. destruct (_ || _); [reflexivity|]. destruct F as [|b b' r r' G F]; [reflexivity|].
  assert (X' : Qltb (s * a + equality_tolerance) (b - a) = Qltb (s' * a' + equality_tolerance) (b' - a')) by (apply Qltb_m; [now rewrite E, B|now rewrite E, G]).
  assert (Y' : Qltb (m + equality_tolerance) (b - a) = Qltb (m' + equality_tolerance) (b' - a')) by (apply Qltb_m; [now rewrite C|now rewrite E, G]).
  rewrite X', Y'. destruct (_ || _); [reflexivity|]. now apply spaces_m.
Qed.

Lemma rev_m l l' : qs l l' -> qs (rev l) (rev l').
Proof. intros F. induction F as [|x y l l' E F IH]; cbn; [constructor|]. apply Forall2_app; [exact IH|]. now constructor. Qed.
Lemma removelast_m l l' : qs l l' -> qs (removelast l) (removelast l').
Proof. intros F. induction F as [|x y l l' E F IH]; cbn; [constructor|]. destruct F; [constructor|]. now constructor. Qed.

Lemma dmax_side_m s t m m' : ss s t -> m == m' -> find_dmax_side s m == find_dmax_side t m'.
Proof.
  intros (_ & A & F) B. unfold find_dmax_side. apply rev_m in F. destruct F as [|x y l l' E F]; [exact B|]. destruct F as [|x2 y2 l l' E2 F]; (apply qmin_m; [exact B|]); [now rewrite A, E|now rewrite A, E, E2].
Qed.

Lemma update_m n f h h' m m' p q s t : init_m f -> h == h' -> m == m' -> ps p q -> ss s t -> orel ss (update_ls n f h m p s) (update_ls n f h' m' q t).
Proof.
  intros Fm A B P (L & D & F). unfold update_ls. pose proof P as (_ & _ & _ & _ & E).
  assert (X : h - f p (p_d p) == h' - f q (p_d q)) by now rewrite A, (Fm _ _ _ _ P E).
  pose proof (find_m n _ _ _ _ _ _ _ _ E D B X) as H. destruct (find_ls n (p_d p) _ _ _), (find_ls n (p_d q) _ _ _); cbn in *; try contradiction; [|exact I]. now repeat split.
Qed.

Lemma adjust_loop_m n f h h' m m' p q s t : init_m f -> h == h' -> m == m' -> ps p q -> ss s t -> forall d d' l l', d == d' -> qs l l' ->
  orel Qeq (adjust_d_loop n f h m p s d l) (adjust_d_loop n f h' m' q t d' l').
Proof.
  intros Fm A B P (L & D & F). induction n as [|n IH]; intros d d' l l' E G; [exact I|]. cbn [adjust_d_loop].
  rewrite (valid_m l l' d d' _ _ _ _ (sd_lmin s) G E D B), L. destruct (is_ls_valid _ _ _ _ _); [exact E|].
  assert (E2 : d - d / 1000 == d' - d' / 1000) by now rewrite E.
  assert (X : h - f p (d - d / 1000) == h' - f q (d' - d' / 1000)) by now rewrite A, (Fm _ _ _ _ P E2).
  pose proof (find_m (S n) _ _ _ _ _ _ _ _ E2 D B X) as H. cbn zeta. destruct (find_ls (S n) (d - _) _ _ _), (find_ls (S n) (d' - _) _ _ _); cbn in H; try contradiction; [|exact I].
  now apply IH.
Qed.
Lemma adjust_m n f h h' m m' p q s t : init_m f -> h == h' -> m == m' -> ps p q -> ss s t -> orel Qeq (adjust_d n f h m p s) (adjust_d n f h' m' q t).
Proof. intros Fm A B P H. unfold adjust_d. apply adjust_loop_m; try assumption; [apply qmin_m; [apply P|assumption]|apply H]. Qed.

Lemma smooth_loop_m n f h h' m m' p q k : init_m f -> h == h' -> m == m' -> ps p q -> forall c c', c == c' ->
  orel Qeq (adjust_smoothness_loop n f h m p k c) (adjust_smoothness_loop n f h' m' q k c').
Proof.
  intros Fm A B P. pose proof P as (_ & _ & _ & _ & D). assert (X : h - f p (p_d p) == h' - f q (p_d q)) by now rewrite A, (Fm _ _ _ _ P D).
  induction n as [|n IH]; intros c c' E; [exact I|]. cbn [adjust_smoothness_loop]. cbn zeta.
  assert (E2 : c - c / 10000 == c' - c' / 10000) by now rewrite E.
  assert (E3 : (if Qltb (c - c / 10000) 1 then 1 else c - c / 10000) == (if Qltb (c' - c' / 10000) 1 then 1 else c' - c' / 10000)) by (rewrite (Qltb_m _ _ E2 1 1 (Qeq_refl 1)); destruct (Qltb _ 1); [reflexivity|exact E2]).
  revert E3. generalize (if Qltb (c - c / 10000) 1 then 1 else c - c / 10000) (if Qltb (c' - c' / 10000) 1 then 1 else c' - c' / 10000). intros x x' E3.
  pose proof (find_m (S n) _ _ _ _ _ _ _ _ D E3 B X) as H. destruct (find_ls (S n) (p_d p) _ _ _) as [l|], (find_ls (S n) (p_d q) _ _ _) as [l'|]; cbn [orel] in H; try contradiction; [|exact I].
  rewrite (qs_length _ _ H). destruct (k <? length l')%nat; [exact E|].
  assert (Y : Qeq_bool x 1 = Qeq_bool x' 1) by (apply eq_true_iff_eq; rewrite !Qeq_bool_iff, E3; reflexivity).
  rewrite Y. destruct (Qeq_bool x' 1); [exact E3|]. now apply IH.
Qed.
Lemma smooth_m n f h h' m m' p q s t : init_m f -> h == h' -> m == m' -> ps p q -> ss s t -> orel Qeq (adjust_smoothness n f h m p s) (adjust_smoothness n f h' m' q t).
Proof. intros Fm A B P (L & D & F). unfold adjust_smoothness. rewrite (qs_length _ _ F). now apply smooth_loop_m. Qed.

Ltac both H := let X := fresh in let x := fresh "x" in let y := fresh "y" in pose proof H as X;
  match type of X with orel _ ?a ?b => destruct a as [x|], b as [y|]; cbn [orel] in X; [|contradiction|contradiction|exact I] end.

Lemma solve_d_m n p q p' q' i j : ps p p' -> ps q q' -> is i j ->
  orel (fun x y => ps (fst (fst x)) (fst (fst y)) /\ ps (snd (fst x)) (snd (fst y)) /\ is (snd x) (snd y)) (auto_solve_d n p q i) (auto_solve_d n p' q' j).
Proof.
  intros P R (H & M & D & B & A). unfold auto_solve_d. cbn zeta.
  both (update_m n _ _ _ _ _ _ _ _ _ before_m H D P B). both (update_m n _ _ _ _ _ _ _ _ _ after_m H D R A).
  assert (Nd : find_dmax x x0 (iv_dmax i) == find_dmax y y0 (iv_dmax j)) by (unfold find_dmax; apply qmin_m; now apply dmax_side_m).
  both (update_m n _ _ _ _ _ _ _ _ _ before_m H D P H0). both (update_m n _ _ _ _ _ _ _ _ _ after_m H D R H1).
  both (adjust_m n _ _ _ _ _ _ _ _ _ before_m H D P H2). pose proof (set_d_m _ _ _ _ P H4) as P2. both (update_m n _ _ _ _ _ _ _ _ _ before_m H D P2 H2).
  both (adjust_m n _ _ _ _ _ _ _ _ _ after_m H D R H3). pose proof (set_d_m _ _ _ _ R H6) as R2. both (update_m n _ _ _ _ _ _ _ _ _ after_m H D R2 H3).
  cbn. split; [exact P2|]. split; [exact R2|]. split; [exact H|]. split; [exact M|]. split; [exact Nd|]. now split.
Qed.

Lemma solve_smooth_m n p q p' q' i j : ps p p' -> ps q q' -> is i j -> orel is (auto_solve_smoothness n p q i) (auto_solve_smoothness n p' q' j).
Proof.
  intros P R (H & M & D & B & A). unfold auto_solve_smoothness. cbn zeta.
  both (update_m n _ _ _ _ _ _ _ _ _ before_m H D P B). both (update_m n _ _ _ _ _ _ _ _ _ after_m H D R A).
  both (smooth_m n _ _ _ _ _ _ _ _ _ before_m H D P H0). both (smooth_m n _ _ _ _ _ _ _ _ _ after_m H D R H1).
  assert (S1 : ss (set_smoothness x x1) (set_smoothness y y1)) by (destruct H0 as (? & ? & ?); split; [assumption|split; assumption]).
  assert (S2 : ss (set_smoothness x0 x2) (set_smoothness y0 y2)) by (destruct H1 as (? & ? & ?); split; [assumption|split; assumption]).
  both (update_m n _ _ _ _ _ _ _ _ _ before_m H D P S1). both (update_m n _ _ _ _ _ _ _ _ _ after_m H D R S2). split; [exact H|]. split; [exact M|]. split; [exact D|]. split; assumption.
Qed.

Lemma map_m f f' l l' : (forall x y, x == y -> f x == f' y) -> qs l l' -> qs (map f l) (map f' l').
Proof. intros H F. induction F; cbn; constructor; auto. Qed.

Lemma mesh_m p q p' q' i j : ps p p' -> ps q q' -> is i j -> qs (mesh_interval p q i) (mesh_interval p' q' j).
Proof.
  intros P R (H & M & D & B & A). unfold mesh_interval. cbn zeta. pose proof P as (P1 & P2 & _ & _ & P5). pose proof R as (R1 & R2 & _ & _ & R5).
  pose proof (before_m _ _ _ _ P P5) as X. pose proof (after_m _ _ _ _ R R5) as Y. rewrite P2, R2. destruct B as (_ & _ & B), A as (_ & _ & A).
  repeat apply Forall2_app.
  - destruct (is_oneline _); constructor; [|constructor]. now rewrite P1, X.
  - apply map_m; [|now apply removelast_m]. intros x y E. now rewrite P1, X, E.
  - now constructor.
  - apply rev_m, map_m; [|now apply removelast_m]. intros x y E. now rewrite R1, Y, E.
  - destruct (is_oneline _); constructor; [|constructor]. now rewrite R1, Y.
Qed.

Lemma zone_m z i j : is i j -> in_zone z (iv_m i) = in_zone z (iv_m j).
Proof. intros (_ & M & _). unfold in_zone. now rewrite M. Qed.
