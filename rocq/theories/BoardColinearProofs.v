(** The grouping of colinear edges. *)
From Coq Require Import List Arith Bool Lia QArith Qabs.
From Verif Require Import IntervalModel IntervalSpec IntervalProofs ManagerModel ManagerSpec ManagerProofs ManagerMoreProofs.
From Verif Require Import GeomModel GeomSpec GeomProofs BoardModel BoardSpec BoardProofs.
Import ListNotations.

(** * Groups of numbers *)

Definition share (G : list (list nat)) (i j : nat) : Prop := exists n c, nth_error G n = Some c /\ In i c /\ In j c.

Inductive joined (G : list (list nat)) (i j : nat) : list (list nat) -> Prop :=
| joined_both n c : nth_error G n = Some c -> In i c -> In j c -> joined G i j G
| joined_one n c x y G' : (x = i /\ y = j) \/ (x = j /\ y = i) -> nth_error G n = Some c -> In x c -> ~ In y c ->
    (forall m d, (m < n)%nat -> nth_error G m = Some d -> ~ In i d /\ ~ In j d) ->
    nth_error G' n = Some (c ++ [y]) -> (forall m, m <> n -> nth_error G' m = nth_error G m) -> joined G i j G'
| joined_new : (forall d, In d G -> ~ In i d /\ ~ In j d) -> joined G i j (G ++ [[i; j]]).

Definition grows (G G' : list (list nat)) : Prop := forall n c, nth_error G n = Some c -> exists t, nth_error G' n = Some (c ++ t).

Lemma grows_refl G : grows G G.
Proof. intros n c H. exists []. now rewrite app_nil_r. Qed.

Lemma grows_trans G H K : grows G H -> grows H K -> grows G K.
Proof.
  intros A B n c E. destruct (A n c E) as (t & F). destruct (B n _ F) as (u & F'). exists (t ++ u). now rewrite app_assoc.
Qed.

Lemma share_grows G G' i j : grows G G' -> share G i j -> share G' i j.
Proof.
  intros H (n & c & E & I & J). destruct (H n c E) as (t & F). exists n, (c ++ t). split; [assumption|].
  split; apply in_or_app; now left.
Qed.

Lemma share_sym G i j : share G i j -> share G j i.
Proof. intros (n & c & E & I & J). now exists n, c. Qed.

Lemma joined_grows G i j G' : joined G i j G' -> grows G G'.
Proof.
  intros [n c E I J|n c x y G'' X E I N F E' O|F] m d H.
  - exists []. now rewrite app_nil_r.
  - destruct (Nat.eq_dec m n) as [->|M].
    + rewrite E in H. injection H as <-. now exists [y].
    + exists []. rewrite app_nil_r. now rewrite O.
  - exists []. rewrite app_nil_r. rewrite nth_error_app1; [assumption|]. eapply nth_lt; eassumption.
Qed.

Lemma nth_snoc {A} (l : list A) x n y : nth_error (l ++ [x]) n = Some y <-> nth_error l n = Some y \/ (n = length l /\ y = x).
Proof.
  split.
  - intros H. destruct (Nat.lt_ge_cases n (length l)) as [L|L].
    + rewrite nth_error_app1 in H by assumption. now left.
    + rewrite nth_error_app2 in H by assumption. right. destruct (n - length l)%nat as [|k] eqn:K; cbn in H.
      * split; [lia|congruence].
      * destruct k; discriminate.
  - intros [H|[-> ->]].
    + rewrite nth_error_app1; [assumption|]. eapply nth_lt; eassumption.
    + rewrite nth_error_app2, Nat.sub_diag by lia. reflexivity.
Qed.

Lemma joined_share G i j G' : joined G i j G' -> share G' i j.
Proof.
  intros [n c E I J|n c x y G'' X E I N F E' O|F].
  - now exists n, c.
  - exists n, (c ++ [y]). split; [assumption|]. destruct X as [[-> ->]|[-> ->]]; split; apply in_or_app; cbn; tauto.
  - exists (length G), [i; j]. split; [apply nth_snoc; now right|]. cbn. tauto.
Qed.

(** The groups after a step: an old one, an old one with one more, or a new pair. *)
Lemma joined_cases G i j G' : joined G i j G' -> forall n d, nth_error G' n = Some d ->
  nth_error G n = Some d
  \/ (exists c x y, nth_error G n = Some c /\ d = c ++ [y] /\ In x c /\ ~ In y c /\ ((x = i /\ y = j) \/ (x = j /\ y = i)))
  \/ (n = length G /\ d = [i; j] /\ forall c, In c G -> ~ In i c /\ ~ In j c).
Proof.
  intros [n c E I J|n c x y G'' X E I N F E' O|F] m d H.
  - now left.
  - destruct (Nat.eq_dec m n) as [->|M].
    + rewrite E' in H. injection H as <-. right. left. now exists c, x, y.
    + left. now rewrite <- O.
  - apply nth_snoc in H. destruct H as [H|[-> ->]]; [now left|]. right. right.
    split; [reflexivity|]. split; [reflexivity|assumption].
Qed.

(** Any property of groups that is closed by these steps. *)
Lemma joined_forall (P : list nat -> Prop) G i j G' : joined G i j G' ->
  (forall n c, nth_error G n = Some c -> P c) -> P [i; j] ->
  (forall c x y, P c -> In x c -> ~ In y c -> (x = i /\ y = j) \/ (x = j /\ y = i) -> P (c ++ [y])) ->
  forall n c, nth_error G' n = Some c -> P c.
Proof.
  intros J H N S n d E. destruct (joined_cases _ _ _ _ J n d E) as [K|[(c & x & y & K & -> & X & Y & XY)|(-> & -> & _)]].
  - eauto.
  - eapply S; eauto.
  - assumption.
Qed.

(** No number in two groups. *)
Definition apart (G : list (list nat)) : Prop :=
  forall n m c d x, nth_error G n = Some c -> nth_error G m = Some d -> In x c -> In x d -> n = m.

Section Classes.
Variable R : nat -> nat -> Prop.
Hypothesis R_sym : forall x y, R x y -> R y x.
Hypothesis R_trans : forall x y z, R x y -> R y z -> R x z.

Definition tight (G : list (list nat)) : Prop := forall n c, nth_error G n = Some c -> forall x y, In x c -> In y c -> x <> y -> R x y.
(** Every group with an element of [L] has one among the [heads]. *)
Definition headed (L heads : list nat) (G : list (list nat)) : Prop :=
  forall n c x, nth_error G n = Some c -> In x c -> In x L -> exists h, In h c /\ In h heads.

Lemma joined_tight G i j G' : R i j -> tight G -> joined G i j G' -> tight G'.
Proof.
  intros E T J. unfold tight. apply (joined_forall (fun c => forall x y, In x c -> In y c -> x <> y -> R x y) G i j G' J T).
  - intros x y [<-|[<-|[]]] [<-|[<-|[]]] N; try congruence; auto.
  - intros c u w Hc U W X x y A B N. assert (R u w) as UW by (destruct X as [[-> ->]|[-> ->]]; auto).
    assert (K : forall z, In z c -> R z w).
    { intros z Z. destruct (Nat.eq_dec z u) as [->|D]; [assumption|]. apply (R_trans z u w); [|assumption]. now apply Hc. }
    apply in_app_or in A. apply in_app_or in B. destruct A as [A|[<-|[]]], B as [B|[<-|[]]]; auto. congruence.
Qed.

Lemma joined_headed L heads i j G G' : In i heads -> In i L -> In j L -> headed L heads G -> joined G i j G' -> headed L heads G'.
Proof.
  intros I IL JL H J n d x E X XL. destruct (joined_cases _ _ _ _ J n d E) as [K|[(c & u & w & K & -> & U & W & UW)|(-> & -> & _)]].
  - eapply H; eauto.
  - assert (In u L) as UL by (destruct UW as [[-> _]|[-> _]]; assumption).
    destruct (H n c u K U UL) as (h & Hh & Hd). exists h. split; [apply in_or_app; now left|assumption].
  - exists i. cbn. tauto.
Qed.

(** The heart of it: the second element of the pair is in no other group, provided the
    heads before [i] share a group with every element they are related to. *)
Lemma joined_apart L done i j G G' :
  R i j -> i <> j -> In i L -> In j L -> ~ In i done -> ~ In j done ->
  tight G -> headed L (done ++ [i]) G ->
  (forall h, In h done -> h <> i -> R h i -> share G h i) ->
  apart G -> joined G i j G' -> apart G'.
Proof.
  intros E N IL JL ID JD T H P A J. destruct J as [n c Ec I J|n c x y G'' X Ec I Ny F E' O|F]; [assumption| |].
  - assert (Other : forall m d, m <> n -> nth_error G m = Some d -> In y d -> False).
    { intros m d M Ed Y. destruct X as [[-> ->]|[-> ->]].
      - (* i in c, j in d *)
        destruct (H m d j Ed Y JL) as (h & Hd & Hh). apply in_app_or in Hh. destruct Hh as [Hh|[<-|[]]].
        + assert (h <> j) as Nj by (intros ->; contradiction). assert (h <> i) as Ni by (intros ->; contradiction).
          assert (R h i) as Ri by (apply (R_trans h j i); [apply (T m d Ed); assumption|auto]).
          destruct (P h Hh Ni Ri) as (q & e & Eq & Hq & Iq).
          assert (q = m) as -> by (exact (A q m e d h Eq Ed Hq Hd)). rewrite Ed in Eq. injection Eq as <-.
          apply M. exact (A m n d c i Ed Ec Iq I).
        + apply M. exact (A m n d c i Ed Ec Hd I).
      - (* j in c, i in d *)
        destruct (H n c j Ec I JL) as (h & Hc & Hh). apply in_app_or in Hh. destruct Hh as [Hh|[<-|[]]]; [|contradiction].
        assert (h <> j) as Nj by (intros ->; contradiction). assert (h <> i) as Ni by (intros ->; contradiction).
        assert (R h i) as Ri by (apply (R_trans h j i); [apply (T n c Ec); assumption|auto]).
        destruct (P h Hh Ni Ri) as (q & e & Eq & Hq & Iq).
        assert (q = n) as -> by (exact (A q n e c h Eq Ec Hq Hc)). rewrite Ec in Eq. injection Eq as <-. contradiction. }
    assert (Old : forall m d z, nth_error G'' m = Some d -> In z d -> (exists d', nth_error G m = Some d' /\ In z d') \/ (m = n /\ z = y)).
    { intros m d z Ed Z. destruct (Nat.eq_dec m n) as [->|M].
      - rewrite E' in Ed. injection Ed as <-. apply in_app_or in Z. destruct Z as [Z|[<-|[]]]; [left; eauto|now right].
      - rewrite O in Ed by assumption. left. eauto. }
    intros m1 m2 d1 d2 z E1 E2 Z1 Z2.
    destruct (Old _ _ _ E1 Z1) as [(d1' & K1 & L1)|[-> ->]], (Old _ _ _ E2 Z2) as [(d2' & K2 & L2)|[M2 Y2]].
    + eapply A; eauto.
    + subst. destruct (Nat.eq_dec m1 n) as [|M]; [assumption|]. exfalso. eapply Other; eauto.
    + destruct (Nat.eq_dec m2 n) as [|M]; [now subst|]. exfalso. eapply Other; eauto.
    + congruence.
  - intros m1 m2 d1 d2 z E1 E2 Z1 Z2. apply nth_snoc in E1, E2.
    destruct E1 as [E1|[-> ->]], E2 as [E2|[-> ->]].
    + eapply A; eauto.
    + exfalso. destruct (F d1 (nth_error_In _ _ E1)) as [Fi Fj]. destruct Z2 as [<-|[<-|[]]]; contradiction.
    + exfalso. destruct (F d2 (nth_error_In _ _ E2)) as [Fi Fj]. destruct Z1 as [<-|[<-|[]]]; contradiction.
    + reflexivity.
Qed.
End Classes.

(** * Addition of a pair on the board *)

Definition groups (b : board) (ax : Axis3) : list (list nat) := map ce_edges (on_axis (b_ce b) ax).

Lemma memb_in i l : memb i l = true <-> In i l.
Proof.
  unfold memb. rewrite existsb_exists. split.
  - intros (x & I & E). apply Nat.eqb_eq in E. now subst.
  - intros I. exists i. split; [assumption|apply Nat.eqb_refl].
Qed.

Lemma memb_not i l : memb i l = false <-> ~ In i l.
Proof. rewrite <- memb_in. now destruct (memb i l). Qed.

Lemma find_colinear_some a b l : forall pos n c, find_colinear a b l pos = Some (n, c) ->
  exists k, n = (pos + k)%nat /\ nth_error l k = Some c /\ (In a (ce_edges c) \/ In b (ce_edges c))
    /\ forall m d, (m < k)%nat -> nth_error l m = Some d -> ~ In a (ce_edges d) /\ ~ In b (ce_edges d).
Proof.
  induction l as [|x l IH]; intros pos n c E; cbn in E; [discriminate|].
  destruct (memb a (ce_edges x) || memb b (ce_edges x)) eqn:M.
  - injection E as <- <-. exists 0%nat. split; [lia|]. split; [reflexivity|]. split; [|intros m d L; lia].
    apply orb_true_iff in M. now rewrite !memb_in in M.
  - apply orb_false_iff in M. rewrite !memb_not in M.
    destruct (IH _ _ _ E) as (k & -> & K & I & F). exists (S k). split; [lia|]. split; [assumption|]. split; [assumption|].
    intros [|m] d L D; cbn in D; [injection D as <-; assumption|]. apply (F m d); [lia|assumption].
Qed.

Lemma find_colinear_none a b l : forall pos, find_colinear a b l pos = None ->
  forall c, In c l -> ~ In a (ce_edges c) /\ ~ In b (ce_edges c).
Proof.
  induction l as [|x l IH]; intros pos E c I; cbn in E; [destruct I|].
  destruct (memb a (ce_edges x) || memb b (ce_edges x)) eqn:M; [discriminate|].
  apply orb_false_iff in M. rewrite !memb_not in M. destruct I as [<-|I]; [assumption|]. eapply IH; eauto.
Qed.

(** The members of conflicts know them, and only them. *)
Definition links (b : board) : Prop := forall i e, edge_at b i e -> forall ax n,
  In (InCE ax n) (e_conflicts e) <-> exists c, nth_error (groups b ax) n = Some c /\ In i c.

Lemma update_edge_spec b i e f : edge_at b i e -> exists l, update_edge b i f = Done (set_edges b l)
  /\ length l = length (b_edges b) /\ nth_error l i = Some (f e) /\ forall j, j <> i -> nth_error l j = nth_error (b_edges b) j.
Proof.
  intros E. unfold update_edge, read. unfold edge_at in E. rewrite E. cbn [bind].
  destruct (write_spec (f e) (b_edges b) i (nth_lt _ _ _ E)) as (l & -> & Len & At & O). exists l. now repeat split.
Qed.

Lemma nth_error_same {A} (l l' : list A) : (forall n, nth_error l n = nth_error l' n) -> l = l'.
Proof.
  revert l'. induction l as [|x l IH]; intros [|y l'] H; [reflexivity| | |].
  - specialize (H 0%nat). discriminate.
  - specialize (H 0%nat). discriminate.
  - f_equal; [specialize (H 0%nat); cbn in H; congruence|]. apply IH. intro n. exact (H (S n)).
Qed.

Lemma map_write {A B} (g : A -> B) l l' i x y : nth_error l i = Some x -> nth_error l' i = Some y -> g y = g x ->
  length l' = length l -> (forall j, j <> i -> nth_error l' j = nth_error l j) -> map g l' = map g l.
Proof.
  revert l' i. induction l as [|a l IH]; intros [|a' l'] i X Y E Len O; cbn in Len; try discriminate; [reflexivity|].
  cbn. destruct i as [|i]; cbn in X, Y.
  - injection X as ->. injection Y as ->. rewrite E. f_equal.
    assert (l' = l) as ->; [|reflexivity]. apply nth_error_same. intro n. apply (O (S n)). discriminate.
  - assert (a' = a) as -> by (specialize (O 0%nat); cbn in O; specialize (O ltac:(discriminate)); congruence). f_equal.
    eapply IH; eauto. intros j N. apply (O (S j)). congruence.
Qed.

Lemma push_without_ce ax n e : without_ce (push_conflict (InCE ax n) e) = without_ce e.
Proof. unfold without_ce, push_conflict. cbn. now rewrite filter_app, app_nil_r. Qed.

Lemma on_set_axis {A} (s : space A) ax x : on_axis (set_axis s ax x) ax = x.
Proof. now destruct ax. Qed.
Lemma on_set_other {A} (s : space A) ax ax' x : ax' <> ax -> on_axis (set_axis s ax x) ax' = on_axis s ax'.
Proof. destruct ax, ax'; intro H; try reflexivity; congruence. Qed.

Lemma axis_dec (a b : Axis3) : {a = b} + {a <> b}.
Proof. decide equality. Qed.

Lemma map_snoc_at (l l' : list colinear) n c y : nth_error l n = Some c -> length l' = length l ->
  nth_error l' n = Some (ce_append c y) -> (forall j, j <> n -> nth_error l' j = nth_error l j) ->
  nth_error (map ce_edges l') n = Some (ce_edges c ++ [y])
  /\ forall m, m <> n -> nth_error (map ce_edges l') m = nth_error (map ce_edges l) m.
Proof.
  intros E Len At O. split; [now rewrite nth_error_map, At|]. intros m M. now rewrite !nth_error_map, O.
Qed.

(** One edge enters the conflict [n]. *)
Lemma append_step b ax n c y ey : nth_error (on_axis (b_ce b) ax) n = Some c -> edge_at b y ey -> ~ In y (ce_edges c) ->
  exists all b', write (on_axis (b_ce b) ax) n (ce_append c y) = Done all
    /\ update_edge (set_ce b (set_axis (b_ce b) ax all)) y (push_conflict (InCE ax n)) = Done b'
    /\ nth_error (groups b' ax) n = Some (ce_edges c ++ [y])
    /\ (forall m, m <> n -> nth_error (groups b' ax) m = nth_error (groups b ax) m)
    /\ (forall ax', ax' <> ax -> on_axis (b_ce b') ax' = on_axis (b_ce b) ax')
    /\ same_but_ce b b' /\ (links b -> links b').
Proof.
  intros E Ey Ny. destruct (write_spec (ce_append c y) _ n (nth_lt _ _ _ E)) as (all & W & Len & At & O).
  destruct (update_edge_spec (set_ce b (set_axis (b_ce b) ax all)) y ey (push_conflict (InCE ax n)) Ey) as (l & U & LenE & AtE & OE).
  exists all. eexists. split; [exact W|]. split; [exact U|]. cbn [set_edges set_ce b_edges] in LenE, AtE, OE.
  destruct (map_snoc_at _ _ _ _ y E Len At O) as [G1 G2].
  assert (Gr : forall m, nth_error (groups (set_edges (set_ce b (set_axis (b_ce b) ax all)) l) ax) m = nth_error (map ce_edges all) m)
    by (intro m; unfold groups; cbn; now rewrite on_set_axis).
  split; [now rewrite Gr|]. split; [intros m M; rewrite Gr; now apply G2|].
  split; [intros ax' N; cbn; now apply on_set_other|].
  split.
  - split; [reflexivity|]. split; [|now repeat split]. cbn. exact (map_write without_ce _ l y ey _ Ey AtE (push_without_ce _ _ _) LenE OE).
  - intros K i e Ei ax' m. unfold edge_at in Ei. cbn [set_edges b_edges] in Ei.
    assert (Same : ax' <> ax -> groups (set_edges (set_ce b (set_axis (b_ce b) ax all)) l) ax' = groups b ax')
      by (intro N; unfold groups; cbn; now rewrite on_set_other).
    destruct (Nat.eq_dec i y) as [->|Ny'].
    + rewrite AtE in Ei. injection Ei as <-. cbn [push_conflict e_conflicts]. rewrite in_app_iff, (K y ey Ey ax' m).
      destruct (axis_dec ax' ax) as [->|N].
      * rewrite Gr. destruct (Nat.eq_dec m n) as [->|M].
        -- rewrite G1. split; [intros _|intros _; right; now left]. eexists. split; [reflexivity|]. apply in_or_app. right. now left.
        -- rewrite G2 by assumption. fold (groups b ax). split; [intros [H|[H|[]]]; [assumption|congruence]|now left].
      * rewrite Same by assumption. split; [intros [H|[H|[]]]; [assumption|congruence]|now left].
    + rewrite OE in Ei by assumption. rewrite (K i e Ei ax' m). destruct (axis_dec ax' ax) as [->|N].
      * rewrite Gr. destruct (Nat.eq_dec m n) as [->|M].
        -- rewrite G1. unfold groups. rewrite nth_error_map, E. cbn. split; intros (d & D & I); injection D as <-;
             (eexists; split; [reflexivity|]); [apply in_or_app; now left|].
           apply in_app_or in I. destruct I as [I|[I|[]]]; [assumption|congruence].
        -- now rewrite G2.
      * now rewrite Same.
Qed.

Lemma new_step b ax i j ei ej : edge_at b i ei -> edge_at b j ej -> i <> j ->
  exists b1 b', let b0 := set_ce b (set_axis (b_ce b) ax (on_axis (b_ce b) ax ++ [mk_colinear [i; j] None false])) in
    update_edge b0 i (push_conflict (InCE ax (length (on_axis (b_ce b) ax)))) = Done b1
    /\ update_edge b1 j (push_conflict (InCE ax (length (on_axis (b_ce b) ax)))) = Done b'
    /\ groups b' ax = groups b ax ++ [[i; j]]
    /\ (forall ax', ax' <> ax -> on_axis (b_ce b') ax' = on_axis (b_ce b) ax')
    /\ same_but_ce b b' /\ (links b -> links b').
Proof.
  intros Ei Ej N. set (all := on_axis (b_ce b) ax). set (b0 := set_ce b (set_axis (b_ce b) ax (all ++ [mk_colinear [i; j] None false]))).
  set (r := InCE ax (length all)).
  destruct (update_edge_spec b0 i ei (push_conflict r) Ei) as (l1 & U1 & Len1 & At1 & O1).
  set (b1 := set_edges b0 l1). assert (Ej1 : edge_at b1 j ej) by (unfold edge_at; cbn; rewrite O1; [assumption|congruence]).
  destruct (update_edge_spec b1 j ej (push_conflict r) Ej1) as (l2 & U2 & Len2 & At2 & O2).
  exists b1, (set_edges b1 l2). cbv zeta. split; [exact U1|]. split; [exact U2|].
  cbn [b1 b0 set_edges set_ce b_edges] in *.
  assert (G : groups (set_edges b1 l2) ax = groups b ax ++ [[i; j]]).
  { unfold groups. cbn. rewrite on_set_axis, map_app. reflexivity. }
  split; [exact G|]. split; [intros ax' H; cbn; now apply on_set_other|].
  split.
  - split; [reflexivity|]. split; [|now repeat split]. cbn.
    transitivity (map without_ce l1).
    + exact (map_write without_ce l1 l2 j ej _ Ej1 At2 (push_without_ce _ _ _) Len2 O2).
    + exact (map_write without_ce _ l1 i ei _ Ei At1 (push_without_ce _ _ _) Len1 O1).
  - intros K k e Ek ax' m. unfold edge_at in Ek. cbn in Ek.
    assert (Lg : length all = length (groups b ax)) by (unfold groups; now rewrite map_length).
    assert (New : (exists c, nth_error (groups (set_edges b1 l2) ax') m = Some c /\ In k c)
      <-> (exists c, nth_error (groups b ax') m = Some c /\ In k c) \/ (ax' = ax /\ m = length all /\ (k = i \/ k = j))).
    { destruct (axis_dec ax' ax) as [->|H].
      - rewrite G. split.
        + intros (c & C & I). apply nth_snoc in C. destruct C as [C|[-> ->]]; [left; eauto|right].
          split; [reflexivity|]. split; [congruence|]. destruct I as [<-|[<-|[]]]; tauto.
        + intros [(c & C & I)|(_ & -> & I)].
          * exists c. split; [apply nth_snoc; now left|assumption].
          * exists [i; j]. split; [apply nth_snoc; right; now split|]. cbn. destruct I as [->| ->]; tauto.
      - assert (groups (set_edges b1 l2) ax' = groups b ax') as -> by (unfold groups; cbn; now rewrite on_set_other).
        split; [now left|]. intros [H'|(H' & _)]; [assumption|contradiction]. }
    rewrite New. destruct (Nat.eq_dec k j) as [->|Nj]; [|destruct (Nat.eq_dec k i) as [->|Ni]].
    + rewrite At2 in Ek. injection Ek as <-. cbn. rewrite in_app_iff, (K j ej Ej ax' m). unfold r. cbn. split.
      * intros [H|[H|[]]]; [now left|]. right. injection H as <- <-. tauto.
      * intros [H|(-> & -> & _)]; [now left|]. right. now left.
    + rewrite O2, At1 in Ek by assumption. injection Ek as <-. cbn. rewrite in_app_iff, (K i ei Ei ax' m). unfold r. cbn. split.
      * intros [H|[H|[]]]; [now left|]. right. injection H as <- <-. tauto.
      * intros [H|(-> & -> & _)]; [now left|]. right. now left.
    + rewrite O2, O1 in Ek by assumption. rewrite (K k e Ek ax' m). split; [now left|].
      intros [H|(_ & _ & [H|H])]; [assumption|congruence|congruence].
Qed.

Lemma segaxis_eqb_refl a : segaxis_eqb a a = true.
Proof. now destruct a. Qed.
Lemma segaxis_eqb_eq a b : segaxis_eqb a b = true <-> a = b.
Proof. destruct a, b; cbn; split; congruence. Qed.

(** The axis of the conflicts of an edge. *)
Definition edge_axis (e : edge) : option Axis3 := axis_of_seg (e_plane e) (seg_axis (e_seg e)).

Lemma add_colinear_spec b i j ei ej ax : edge_at b i ei -> edge_at b j ej -> i <> j ->
  e_plane ei = e_plane ej -> seg_axis (e_seg ei) = seg_axis (e_seg ej) -> edge_axis ei = Some ax ->
  exists b', add_colinear_edges b i j = Done b' /\ joined (groups b ax) i j (groups b' ax)
    /\ (forall ax', ax' <> ax -> on_axis (b_ce b') ax' = on_axis (b_ce b) ax')
    /\ same_but_ce b b' /\ (links b -> links b').
Proof.
  intros Ei Ej N P S A. unfold add_colinear_edges, read.
  pose proof Ei as Ei'. pose proof Ej as Ej'. unfold edge_at in Ei', Ej'. rewrite Ei', Ej'. cbn [bind].
  assert (plane_eqb (e_plane ei) (e_plane ej) = true) as -> by (now apply plane_eqb_eq).
  rewrite S, segaxis_eqb_refl. cbn [andb]. unfold edge_axis in A. rewrite <- S, A.
  destruct (find_colinear i j (on_axis (b_ce b) ax) 0) as [[n c]|] eqn:F.
  - destruct (find_colinear_some _ _ _ _ _ _ F) as (k & -> & C & I & First). cbn [Nat.add] in *.
    assert (Cg : nth_error (groups b ax) k = Some (ce_edges c)) by (unfold groups; now rewrite nth_error_map, C).
    assert (Fg : forall m d, (m < k)%nat -> nth_error (groups b ax) m = Some d -> ~ In i d /\ ~ In j d).
    { intros m d L D. unfold groups in D. rewrite nth_error_map in D. destruct (nth_error _ m) as [x|] eqn:X; [|discriminate].
      injection D as <-. eapply First; eauto. }
    destruct (memb i (ce_edges c)) eqn:Mi; [apply memb_in in Mi; destruct (memb j (ce_edges c)) eqn:Mj|apply memb_not in Mi].
    + apply memb_in in Mj. exists b. split; [reflexivity|]. split; [eapply joined_both; eauto|]. split; [reflexivity|].
      split; [now repeat split|auto].
    + apply memb_not in Mj. destruct (append_step b ax k c j ej C Ej Mj) as (all & b' & W & U & G1 & G2 & Ot & Fr & Li).
      exists b'. rewrite W. cbn [bind]. split; [exact U|]. split; [|split; [exact Ot|split; [exact Fr|exact Li]]].
      apply (joined_one _ _ _ k (ce_edges c) i j); auto.
    + destruct I as [I|I]; [contradiction|].
      destruct (append_step b ax k c i ei C Ei Mi) as (all & b' & W & U & G1 & G2 & Ot & Fr & Li).
      exists b'. rewrite W. cbn [bind]. split; [exact U|]. split; [|split; [exact Ot|split; [exact Fr|exact Li]]].
      apply (joined_one _ _ _ k (ce_edges c) j i); auto.
  - destruct (new_step b ax i j ei ej Ei Ej N) as (b1 & b' & U1 & U2 & G & Ot & Fr & Li). cbv zeta in U1.
    exists b'. rewrite U1. cbn [bind]. split; [exact U2|]. split; [|split; [exact Ot|split; [exact Fr|exact Li]]].
    rewrite G. apply joined_new. intros d D. unfold groups in D. apply in_map_iff in D. destruct D as (x & <- & D).
    eapply find_colinear_none; eauto.
Qed.

(** * Loops *)

Lemma for_each_inv {A B} (f : B -> A -> run B) (P : list A -> B -> Prop) l : forall b, P [] b ->
  (forall done x rest b, l = done ++ x :: rest -> P done b -> exists b', f b x = Done b' /\ P (done ++ [x]) b') ->
  exists b', for_each f l b = Done b' /\ P l b'.
Proof.
  revert P. induction l as [|x l IH]; intros P b P0 S; cbn.
  - exists b. now split.
  - destruct (S [] x l b eq_refl P0) as (b1 & E1 & P1). rewrite E1. cbn [bind].
    destruct (IH (fun d => P (x :: d)) b1 P1) as (b2 & E2 & P2); [|eauto].
    intros done y rest b' E Q. apply (S (x :: done) y rest b'); [cbn; now rewrite E|assumption].
Qed.

Lemma loop_inv p (P : list nat -> board -> Prop) l : forall b, P [] b ->
  (forall done i rest b, l = done ++ i :: rest -> P done b -> exists e b', edge_at b i e
     /\ (if segaxis_eqb (seg_axis (e_seg e)) SDIAG then Done b else for_each (detect_colinear_pair p i) rest b) = Done b'
     /\ P (done ++ [i]) b') ->
  exists b', detect_colinear_loop p l b = Done b' /\ P l b'.
Proof.
  revert P. induction l as [|x l IH]; intros P b P0 S; cbn [detect_colinear_loop].
  - exists b. now split.
  - destruct (S [] x l b eq_refl P0) as (e & b1 & At & E1 & P1). unfold read. unfold edge_at in At. rewrite At. cbn [bind]. rewrite E1. cbn [bind].
    destruct (IH (fun d => P (x :: d)) b1 P1) as (b2 & E2 & P2); [|eauto].
    intros done y rest b' E Q. apply (S (x :: done) y rest b'); [cbn; now rewrite E|assumption].
Qed.

(** * Detection *)

Lemma same_but_ce_refl b : same_but_ce b b.
Proof. now repeat split. Qed.

Lemma same_but_ce_trans a b c : same_but_ce a b -> same_but_ce b c -> same_but_ce a c.
Proof.
  intros (A1 & A2 & A3 & A4 & A5 & A6 & A7) (B1 & B2 & B3 & B4 & B5 & B6 & B7). unfold same_but_ce.
  repeat split; congruence.
Qed.

Lemma same_edge b b' i e : same_but_ce b b' -> edge_at b i e -> exists e', edge_at b' i e' /\ without_ce e' = without_ce e.
Proof.
  intros (_ & M & _) E. unfold edge_at in *. pose proof (map_nth_error without_ce _ _ E) as K. rewrite <- M, nth_error_map in K.
  destruct (nth_error (b_edges b') i) as [e'|]; [|discriminate]. exists e'. split; [reflexivity|]. cbn [option_map] in K. congruence.
Qed.

Lemma same_but_ce_sym b b' : same_but_ce b b' -> same_but_ce b' b.
Proof. intros (A1 & A2 & A3 & A4 & A5 & A6 & A7). unfold same_but_ce. repeat split; congruence. Qed.

Definition axis_at (b : board) (i : nat) (ax : Axis3) : Prop := exists e, edge_at b i e /\ edge_axis e = Some ax.
Definition plane_at (b : board) (i : nat) (p : Plane) : Prop := exists e, edge_at b i e /\ e_plane e = p.

Lemma without_ce_geo e e' : without_ce e' = without_ce e -> e_plane e' = e_plane e /\ e_seg e' = e_seg e.
Proof. intros H. pose proof (f_equal e_plane H) as A. pose proof (f_equal e_seg H) as B. now split. Qed.

Lemma axis_at_same b b' i ax : same_but_ce b b' -> axis_at b i ax -> axis_at b' i ax.
Proof.
  intros S (e & E & A). destruct (same_edge _ _ _ _ S E) as (e' & E' & W). exists e'. split; [assumption|].
  destruct (without_ce_geo _ _ W) as [W1 W2]. unfold edge_axis in *. now rewrite W1, W2.
Qed.

Lemma plane_at_same b b' i p : same_but_ce b b' -> plane_at b i p -> plane_at b' i p.
Proof.
  intros S (e & E & A). destruct (same_edge _ _ _ _ S E) as (e' & E' & W). exists e'. split; [assumption|].
  destruct (without_ce_geo _ _ W) as [W1 W2]. congruence.
Qed.

Lemma colinear_at_same b b' i j : same_but_ce b b' -> colinear_at b i j -> colinear_at b' i j.
Proof.
  intros S (e & f & E & F & C). destruct (same_edge _ _ _ _ S E) as (e' & E' & We), (same_edge _ _ _ _ S F) as (f' & F' & Wf).
  exists e', f'. split; [assumption|]. split; [assumption|].
  destruct (without_ce_geo _ _ We) as [A1 A2], (without_ce_geo _ _ Wf) as [B1 B2].
  unfold colinear_edges in *. now rewrite A1, A2, B1, B2.
Qed.

Lemma colinear_sym e f : colinear_edges e f -> colinear_edges f e.
Proof.
  intros (P & v & A & B & C). split; [congruence|]. exists v. split; [assumption|]. split; [assumption|].
  rewrite Qabs_Qminus. assumption.
Qed.

Lemma colinear_at_sym b i j : colinear_at b i j -> colinear_at b j i.
Proof. intros (e & f & E & F & C). exists f, e. split; [assumption|]. split; [assumption|]. now apply colinear_sym. Qed.

Lemma colinear_axis e f : colinear_edges e f -> exists ax, edge_axis e = Some ax /\ edge_axis f = Some ax.
Proof.
  intros (P & v & A & B & _). unfold edge_axis. rewrite <- P, A, B. destruct (e_plane f), v; cbn; eauto;
  destruct (e_plane e); cbn; eauto.
Qed.

Lemma axis_at_unique b i ax ax' : axis_at b i ax -> axis_at b i ax' -> ax = ax'.
Proof. intros (e & E & A) (e' & E' & A'). unfold edge_at in *. congruence. Qed.

Lemma colinear_at_axis b i j : colinear_at b i j -> exists ax, axis_at b i ax /\ axis_at b j ax.
Proof.
  intros (e & f & E & F & C). destruct (colinear_axis _ _ C) as (ax & A & B). exists ax. split; [exists e|exists f]; now split.
Qed.

(** What a pair does. *)
Inductive pair_step (b : board) (i j : nat) (b' : board) : Prop :=
| pair_joined ax : colinear_at b i j -> axis_at b i ax -> axis_at b j ax -> joined (groups b ax) i j (groups b' ax) ->
    (forall ax', ax' <> ax -> groups b' ax' = groups b ax') -> pair_step b i j b'
| pair_none : ~ colinear_at b i j -> b' = b -> pair_step b i j b'.

Lemma pair_spec p i j b : plane_at b i p -> plane_at b j p -> i <> j ->
  exists b', detect_colinear_pair p i b j = Done b' /\ same_but_ce b b' /\ (links b -> links b') /\ pair_step b i j b'.
Proof.
  intros (ei & Ei & Pi) (ej & Ej & Pj) N. unfold detect_colinear_pair, read.
  pose proof Ei as Ei'. pose proof Ej as Ej'. unfold edge_at in Ei', Ej'. rewrite Ei', Ej'. cbn [bind].
  assert (No : ~ colinear_edges ei ej -> ~ colinear_at b i j).
  { intros H (e & f & E & F & C). unfold edge_at in *. apply H. congruence. }
  assert (Skip : ~ colinear_edges ei ej -> exists b', Done b = Done b' /\ same_but_ce b b' /\ (links b -> links b') /\ pair_step b i j b').
  { intros H. exists b. split; [reflexivity|]. split; [apply same_but_ce_refl|]. split; [auto|]. apply pair_none; auto. }
  assert (Add : colinear_edges ei ej ->
    exists b', add_colinear_edges b i j = Done b' /\ same_but_ce b b' /\ (links b -> links b') /\ pair_step b i j b').
  { intros C. destruct (colinear_axis _ _ C) as (ax & A & B). pose proof C as (P & v & S1 & S2 & _).
    destruct (add_colinear_spec b i j ei ej ax Ei Ej N P (eq_trans S1 (eq_sym S2)) A) as (b' & E & J & O & F & L).
    exists b'. split; [assumption|]. split; [assumption|]. split; [assumption|]. apply (pair_joined _ _ _ _ ax).
    - exists ei, ej. split; [assumption|]. now split.
    - exists ei. now split.
    - exists ej. now split.
    - assumption.
    - intros ax' H. unfold groups. now rewrite O. }
  destruct (segaxis_eqb (seg_axis (e_seg ej)) (seg_axis (e_seg ei))) eqn:S.
  - apply segaxis_eqb_eq in S. destruct (seg_axis (e_seg ei)) eqn:D.
    + replace (axis_of_seg p SH) with (Some (match p with PYZ => AZ | PZX => AX | PXY => AY end)) by (now destruct p).
      cbn [segaxis_eqb andb]. destruct (coord_eqb _ _) eqn:C.
      * apply Add. split; [congruence|]. exists VH. split; [assumption|]. split; [assumption|]. now apply coord_eqb_spec in C.
      * apply Skip. intros (_ & v & S1 & _ & C'). assert (v = VH) as -> by (destruct v; cbn in S1; congruence).
        change (Qabs (level VH (s0 (e_seg ei)) - level VH (s0 (e_seg ej))) < 1 # 100000000) in C'. apply coord_eqb_spec in C'. cbn in C'. congruence.
    + replace (axis_of_seg p SV) with (Some (match p with PYZ => AY | PZX => AZ | PXY => AX end)) by (now destruct p).
      cbn [segaxis_eqb andb]. destruct (coord_eqb _ _) eqn:C.
      * apply Add. split; [congruence|]. exists VV. split; [assumption|]. split; [assumption|]. now apply coord_eqb_spec in C.
      * apply Skip. intros (_ & v & S1 & _ & C'). assert (v = VV) as -> by (destruct v; cbn in S1; congruence).
        change (Qabs (level VV (s0 (e_seg ei)) - level VV (s0 (e_seg ej))) < 1 # 100000000) in C'. apply coord_eqb_spec in C'. cbn in C'. congruence.
    + replace (axis_of_seg p SDIAG) with (@None Axis3) by (now destruct p). apply Skip. intros (_ & v & S1 & _). destruct v; cbn in S1; congruence.
    + replace (axis_of_seg p SPOINT) with (@None Axis3) by (now destruct p). apply Skip. intros (_ & v & S1 & _). destruct v; cbn in S1; congruence.
  - apply Skip. intros (_ & v & S1 & S2 & _). rewrite S1, S2, segaxis_eqb_refl in S. discriminate.
Qed.

Lemma positions_in {A} (f : A -> bool) l i : In i (positions f l) <-> exists x, nth_error l i = Some x /\ f x = true.
Proof.
  unfold positions. rewrite in_map_iff. split.
  - intros ([j x] & <- & I). apply filter_In in I. destruct I as [I F]. apply view_in in I. eauto.
  - intros (x & E & F). exists (i, x). split; [reflexivity|]. apply filter_In. split; [now apply view_in|assumption].
Qed.

Lemma positions_nodup {A} (f : A -> bool) l : NoDup (positions f l).
Proof. unfold positions. apply nodup_filter_fst. rewrite view_fst. apply seq_NoDup. Qed.

Lemma edges_of_in b p i : In i (edges_of b p) <-> plane_at b i p.
Proof.
  unfold edges_of, plane_at. rewrite positions_in. split; intros (e & E & P); exists e; (split; [assumption|]); now apply plane_eqb_eq.
Qed.

(** What is true of conflicts at all times. *)
Definition wf (b : board) : Prop := forall ax n c, nth_error (groups b ax) n = Some c ->
  (2 <= length c)%nat /\ NoDup c /\ (forall x, In x c -> axis_at b x ax)
  /\ (forall x y p, In x c -> In y c -> plane_at b x p -> plane_at b y p)
  /\ (forall x, In x c -> exists y, In y c /\ y <> x /\ colinear_at b x y).

Lemma NoDup_snoc {A} (l : list A) x : NoDup l -> ~ In x l -> NoDup (l ++ [x]).
Proof.
  intros N I. induction N as [|y l H N IH]; cbn; [now repeat constructor|]. constructor.
  - intro K. apply in_app_or in K. destruct K as [K|[->|[]]]; [contradiction|]. apply I. now left.
  - apply IH. intro K. apply I. now right.
Qed.

Lemma plane_at_unique b i p q : plane_at b i p -> plane_at b i q -> p = q.
Proof. intros (e & E & P) (f & F & P'). unfold edge_at in *. congruence. Qed.

Lemma colinear_at_plane b i j p : colinear_at b i j -> plane_at b i p -> plane_at b j p.
Proof.
  intros (e & f & E & F & (P & _)) (e' & E' & P'). exists f. split; [assumption|]. unfold edge_at in *. congruence.
Qed.

Lemma pair_wf b i j b' : i <> j -> same_but_ce b b' -> pair_step b i j b' -> wf b -> wf b'.
Proof.
  intros N S [ax C Ai Aj J O|_ ->] W; [|assumption].
  assert (Wb : forall ax n c, nth_error (groups b ax) n = Some c ->
    (2 <= length c)%nat /\ NoDup c /\ (forall x, In x c -> axis_at b' x ax)
    /\ (forall x y p, In x c -> In y c -> plane_at b' x p -> plane_at b' y p)
    /\ (forall x, In x c -> exists y, In y c /\ y <> x /\ colinear_at b' x y)).
  { intros ax' n c E. destruct (W ax' n c E) as (W1 & W2 & W3 & W4 & W5). split; [assumption|]. split; [assumption|]. split; [|split].
    - intros x I. eapply axis_at_same; eauto.
    - intros x y p X Y P. eapply plane_at_same; [eassumption|]. eapply W4; [exact X|exact Y|].
      eapply plane_at_same; [apply same_but_ce_sym; eassumption|assumption].
    - intros x I. destruct (W5 x I) as (y & Y & D & R). exists y. split; [assumption|]. split; [assumption|]. eapply colinear_at_same; eauto. }
  intros ax' n c E. destruct (axis_dec ax' ax) as [->|D]; [|rewrite O in E by assumption; now apply Wb in E].
  revert n c E. apply (joined_forall _ _ _ _ _ J).
  - intros n c E. now apply (Wb ax n c).
  - split; [cbn; lia|]. split; [constructor; [intros [H|[]]; congruence|now repeat constructor]|]. split; [|split].
    + intros x [<-|[<-|[]]]; eapply axis_at_same; eauto.
    + assert (C' : colinear_at b' i j) by (eapply colinear_at_same; eauto).
      intros x y p [<-|[<-|[]]] [<-|[<-|[]]] P; try assumption; eapply colinear_at_plane; eauto. now apply colinear_at_sym.
    + assert (C' : colinear_at b' i j) by (eapply colinear_at_same; eauto).
      intros x [<-|[<-|[]]]; [exists j|exists i]; (split; [cbn; tauto|]); (split; [congruence|]); [assumption|now apply colinear_at_sym].
  - intros c x y (W1 & W2 & W3 & W4 & W5) X Y XY.
    assert (C' : colinear_at b' x y).
    { assert (C' : colinear_at b' i j) by (eapply colinear_at_same; eauto). destruct XY as [[-> ->]|[-> ->]]; [assumption|now apply colinear_at_sym]. }
    assert (Ay : axis_at b' y ax) by (destruct XY as [[-> ->]|[-> ->]]; eapply axis_at_same; eauto).
    split; [rewrite app_length; lia|]. split; [now apply NoDup_snoc|]. split; [|split].
    + intros z Z. apply in_app_or in Z. destruct Z as [Z|[<-|[]]]; [now apply W3|assumption].
    + assert (To : forall z p, In z c -> plane_at b' z p <-> plane_at b' y p).
      { intros z p Z. split; intro K.
        - eapply colinear_at_plane; [exact C'|]. eapply W4; [exact Z|exact X|exact K].
        - eapply W4; [exact X|exact Z|]. eapply colinear_at_plane; [apply colinear_at_sym; exact C'|exact K]. }
      intros u v p U V P. apply in_app_or in U. apply in_app_or in V.
      destruct U as [U|[<-|[]]], V as [V|[<-|[]]]; [eapply W4; [exact U|exact V|exact P]| | |assumption].
      * now apply (To u p U).
      * now apply (To v p V).
    + intros z Z. apply in_app_or in Z. destruct Z as [Z|[<-|[]]].
      * destruct (W5 z Z) as (t & T & D & R). exists t. split; [apply in_or_app; now left|]. now split.
      * exists x. split; [apply in_or_app; now left|]. split; [intros ->; contradiction|now apply colinear_at_sym].
Qed.

(** What transitivity of being colinear brings. *)
Definition classes (L heads : list nat) (b0 b : board) : Prop :=
  forall ax, tight (colinear_at b0) (groups b ax) /\ headed L heads (groups b ax) /\ apart (groups b ax).

Definition found (b0 b : board) (h k : nat) : Prop := forall ax, colinear_at b0 h k -> axis_at b0 h ax -> share (groups b ax) h k.

Lemma pair_grows b i j b' : pair_step b i j b' -> forall ax, grows (groups b ax) (groups b' ax).
Proof.
  intros [ax C Ai Aj J O|_ ->] ax'; [|apply grows_refl]. destruct (axis_dec ax' ax) as [->|D].
  - eapply joined_grows; eauto.
  - rewrite O by assumption. apply grows_refl.
Qed.

Lemma found_grows b0 b b' h k : (forall ax, grows (groups b ax) (groups b' ax)) -> found b0 b h k -> found b0 b' h k.
Proof. intros G F ax C A. eapply share_grows; [apply G|]. now apply F. Qed.

Lemma pair_found b i j b' : pair_step b i j b' -> found b b' i j.
Proof.
  intros [ax C Ai Aj J O|H _] ax' C' A'; [|contradiction]. rewrite (axis_at_unique _ _ _ _ A' Ai). eapply joined_share; eauto.
Qed.

Lemma joined_within (P : nat -> Prop) G i j G' : P i -> P j -> joined G i j G' ->
  (forall n c x, nth_error G n = Some c -> In x c -> P x) -> forall n c x, nth_error G' n = Some c -> In x c -> P x.
Proof.
  intros Pi Pj J H n c x E X. revert x X. revert n c E. apply (joined_forall (fun c => forall x, In x c -> P x) G i j G' J).
  - intros; eapply H; eauto.
  - intros x [<-|[<-|[]]]; assumption.
  - intros c u y C U Y [[-> ->]|[-> ->]] x X; apply in_app_or in X; destruct X as [X|[<-|[]]]; auto.
Qed.

(** The state of the loops: [done] are the outer edges that are finished. *)
Record state (strong : Prop) (L : list nat) (b0 : board) (done heads : list nat) (b : board) : Prop := mk_state
  { st_same : same_but_ce b0 b; st_links : links b0 -> links b; st_wf : wf b0 -> wf b;
    st_grows : forall ax, grows (groups b0 ax) (groups b ax);
    st_found : forall h k, In h done -> In k L -> h <> k -> found b0 b h k;
    st_within : forall ax n c x, nth_error (groups b ax) n = Some c -> In x c ->
      In x L \/ exists m d, nth_error (groups b0 ax) m = Some d /\ In x d;
    st_strong : strong -> classes L heads b0 b }.

Lemma pair_state (strong : Prop) L b0 done i j b b' : (strong -> transitive_at b0) -> i <> j -> In i L -> In j L -> ~ In i done -> ~ In j done ->
  same_but_ce b b' -> (links b -> links b') -> pair_step b i j b' ->
  state strong L b0 done (done ++ [i]) b -> state strong L b0 done (done ++ [i]) b'.
Proof.
  intros T N IL JL ID JD S Li St [S0 L0 W0 G0 F0 I0 C0].
  pose proof (pair_grows _ _ _ _ St) as Gr. constructor.
  - eapply same_but_ce_trans; eauto.
  - auto.
  - intro W. eapply pair_wf; eauto.
  - intro ax. eapply grows_trans; eauto.
  - intros h k H K D. eapply found_grows; eauto.
  - destruct St as [ax C Ai Aj J O|_ ->]; [|assumption]. intros ax'. destruct (axis_dec ax' ax) as [->|D].
    + apply (joined_within (fun x => In x L \/ exists m d, nth_error (groups b0 ax) m = Some d /\ In x d) (groups b ax) i j); [now left|now left|assumption|apply I0].
    + rewrite O by assumption. apply I0.
  - intro X. specialize (C0 X). specialize (T X). destruct St as [ax C Ai Aj J O|_ ->]; [|assumption].
    pose proof (same_but_ce_sym _ _ S0) as S0'.
    assert (C' : colinear_at b0 i j) by (eapply colinear_at_same; eauto).
    assert (Sy : forall x y, colinear_at b0 x y -> colinear_at b0 y x) by (intros; now apply colinear_at_sym).
    intros ax'. destruct (axis_dec ax' ax) as [->|D]; [|unfold groups in O; unfold groups; rewrite O by assumption; apply C0].
    destruct (C0 ax) as (Ti & He & Ap). split; [|split].
    + eapply joined_tight; eauto.
    + apply (joined_headed L (done ++ [i]) i j (groups b ax)); auto. apply in_or_app. right. now left.
    + eapply (joined_apart (colinear_at b0) Sy T L done i j); eauto.
      intros h H Hi R. apply (F0 h i H IL Hi ax R). destruct (colinear_at_axis _ _ _ R) as (a & A & B).
      rewrite (axis_at_unique b0 i ax a); [assumption| |assumption]. eapply axis_at_same; eauto.
Qed.

Lemma headed_more L heads more G : headed L heads G -> headed L (heads ++ more) G.
Proof. intros H n c x E X XL. destruct (H n c x E X XL) as (h & A & B). exists h. split; [assumption|]. apply in_or_app. now left. Qed.

Lemma found_same b0 b b' i j : same_but_ce b0 b -> found b b' i j -> found b0 b' i j.
Proof. intros S F ax C A. apply F; [eapply colinear_at_same; eauto|eapply axis_at_same; eauto]. Qed.

Lemma outer_state (strong : Prop) p b0 done i rest b : (strong -> transitive_at b0) -> edges_of b0 p = done ++ i :: rest ->
  state strong (edges_of b0 p) b0 done done b ->
  exists e b', edge_at b i e
     /\ (if segaxis_eqb (seg_axis (e_seg e)) SDIAG then Done b else for_each (detect_colinear_pair p i) rest b) = Done b'
     /\ state strong (edges_of b0 p) b0 (done ++ [i]) (done ++ [i]) b'.
Proof.
  intros T EL St. set (L := edges_of b0 p) in *.
  assert (ND : NoDup L) by apply positions_nodup. rewrite EL in ND.
  assert (IL : In i L) by (rewrite EL; apply in_or_app; right; now left).
  assert (NI : ~ In i (done ++ rest)) by (apply NoDup_remove in ND; tauto).
  assert (Pi : plane_at b i p) by (eapply plane_at_same; [apply (st_same _ _ _ _ _ _ St)|now apply edges_of_in]).
  pose proof Pi as (e & Ee & Pe).
  assert (St' : state strong L b0 done (done ++ [i]) b).
  { destruct St as [A B C D E I F]. constructor; auto. intros X ax. destruct (F X ax) as (F1 & F2 & F3). split; [assumption|]. split; [now apply headed_more|assumption]. }
  (* the previous edges share with [i], from their side *)
  assert (Back : forall b', (forall ax, grows (groups b ax) (groups b' ax)) -> forall k, In k done -> found b0 b' i k).
  { intros b' G k K ax C A. apply share_sym. apply (share_grows (groups b ax)); [apply G|].
    destruct (colinear_at_axis _ _ _ C) as (a & A1 & A2). rewrite (axis_at_unique _ _ _ _ A A1).
    apply (st_found _ _ _ _ _ _ St k i K IL); [intros ->; apply NI; apply in_or_app; now left|now apply colinear_at_sym|assumption]. }
  assert (Finish : forall b', state strong L b0 done (done ++ [i]) b' -> (forall ax, grows (groups b ax) (groups b' ax)) ->
    (forall k, In k rest -> found b0 b' i k) -> state strong L b0 (done ++ [i]) (done ++ [i]) b').
  { intros b' [A B C D E I F] G Fk. constructor; auto.
    intros h k H K N. apply in_app_or in H. destruct H as [H|[<-|[]]]; [now apply E|].
    rewrite EL in K. apply in_app_or in K. destruct K as [K|[K|K]]; [eapply Back; eauto|congruence|now apply Fk]. }
  exists e. destruct (segaxis_eqb (seg_axis (e_seg e)) SDIAG) eqn:D.
  - exists b. split; [assumption|]. split; [reflexivity|]. apply Finish; [assumption|intro; apply grows_refl|].
    intros k K ax C A. exfalso. apply segaxis_eqb_eq in D. destruct A as (e' & E' & A').
    destruct (same_edge _ _ _ _ (st_same _ _ _ _ _ _ St) E') as (e2 & E2 & W). unfold edge_at in *.
    assert (e2 = e) as -> by congruence. destruct (without_ce_geo _ _ W) as [W1 W2]. unfold edge_axis in A'.
    rewrite <- W2, D in A'. destruct (e_plane e'); discriminate.
  - destruct (for_each_inv (detect_colinear_pair p i)
      (fun mid b' => state strong L b0 done (done ++ [i]) b' /\ (forall ax, grows (groups b ax) (groups b' ax)) /\ forall k, In k mid -> found b0 b' i k)
      rest b) as (b' & E' & S' & G' & F').
    + split; [assumption|]. split; [intro; apply grows_refl|]. intros k [].
    + intros mid j tail b1 ER (S1 & G1 & F1).
      assert (JL : In j L) by (rewrite EL, ER; apply in_or_app; right; right; apply in_or_app; right; now left).
      assert (JR : In j rest) by (rewrite ER; apply in_or_app; right; now left).
      assert (Nij : i <> j) by (intros ->; apply NI; apply in_or_app; now right).
      assert (JD : ~ In j done).
      { intro K. apply NoDup_remove_1 in ND. apply in_split in K. destruct K as (u & w & ->). rewrite <- app_assoc in ND.
        apply NoDup_remove_2 in ND. apply ND. apply in_or_app. right. apply in_or_app. now right. }
      assert (ID : ~ In i done) by (intro K; apply NI; apply in_or_app; now left).
      pose proof (st_same _ _ _ _ _ _ S1) as Sb.
      destruct (pair_spec p i j b1) as (b2 & E2 & Sm & Li & St2).
      * eapply plane_at_same; [exact Sb|now apply edges_of_in].
      * eapply plane_at_same; [exact Sb|now apply edges_of_in].
      * assumption.
      * exists b2. split; [assumption|]. split; [|split].
        -- eapply pair_state; eauto.
        -- intro ax. eapply grows_trans; [apply G1|]. now apply (pair_grows _ _ _ _ St2).
        -- intros k K. apply in_app_or in K. destruct K as [K|[<-|[]]].
           ++ eapply found_grows; [apply (pair_grows _ _ _ _ St2)|]. now apply F1.
           ++ apply (found_same b0 b1); [assumption|]. now apply pair_found.
    + exists b'. split; [assumption|]. split; [assumption|]. now apply Finish.
Qed.

(** One plane. *)
Lemma plane_state (strong : Prop) p b : (strong -> transitive_at b /\ classes (edges_of b p) [] b b) ->
  exists b', detect_colinear_edges b p = Done b' /\ state strong (edges_of b p) b (edges_of b p) (edges_of b p) b'.
Proof.
  intros T. unfold detect_colinear_edges.
  apply (loop_inv p (fun done b' => state strong (edges_of b p) b done done b')).
  - constructor; auto.
    + apply same_but_ce_refl.
    + intro. apply grows_refl.
    + intros h k [].
    + intros ax n c x C X. right. eauto.
    + intro X. now apply T.
  - intros done i rest b' E St. apply outer_state; [intro X; now apply T|assumption|assumption].
Qed.

(** All planes, from a board without conflicts of colinear edges. *)
Record planes_state (planes : list Plane) (b0 b : board) : Prop := mk_planes_state
  { ps_same : same_but_ce b0 b; ps_links : links b; ps_wf : wf b;
    ps_found : forall p h k, In p planes -> plane_at b0 h p -> h <> k -> found b0 b h k;
    ps_within : forall ax n c x, nth_error (groups b ax) n = Some c -> In x c -> exists p, In p planes /\ plane_at b0 x p;
    ps_strong : transitive_at b0 -> forall ax, tight (colinear_at b0) (groups b ax) /\ apart (groups b ax) }.

Lemma transitive_same b b' : same_but_ce b b' -> transitive_at b -> transitive_at b'.
Proof.
  intros S T i j k A B. pose proof (same_but_ce_sym _ _ S) as S'. eapply colinear_at_same; [exact S|]. eapply T; eapply colinear_at_same; eauto.
Qed.

Lemma planes_done planes : forall b0, NoDup planes -> no_ce b0 ->
  exists b, for_each detect_colinear_edges planes b0 = Done b /\ planes_state planes b0 b.
Proof.
  intros b0 ND (No & NoL). apply (for_each_inv detect_colinear_edges (fun done b => planes_state done b0 b)).
  - assert (Ge : forall ax n, nth_error (groups b0 ax) n = None) by (intros ax n; unfold groups; rewrite No; now destruct n).
    constructor.
    + apply same_but_ce_refl.
    + intros i e E ax n. split; [intro K; exfalso; eapply NoL; eauto|]. intros (c & C & _). rewrite Ge in C. discriminate.
    + intros ax n c C. rewrite Ge in C. discriminate.
    + intros p h k [].
    + intros ax n c x C. rewrite Ge in C. discriminate.
    + intros _ ax. split; [intros n c C|intros n m c d x C]; rewrite Ge in C; discriminate.
  - intros done p rest b EP [Sm Li Wf Fo Wi St].
    assert (NP : ~ In p done) by (rewrite EP in ND; apply NoDup_remove_2 in ND; intro K; apply ND; apply in_or_app; now left).
    pose proof (same_but_ce_sym _ _ Sm) as Sm'.
    destruct (plane_state (transitive_at b0) p b) as (b' & E & [S' L' W' G' F' I' C']).
    { intros T. split; [eapply transitive_same; eauto|]. intros ax. destruct (St T ax) as [T1 T2]. split; [|split].
      - intros n c C x y X Y N. eapply colinear_at_same; [exact Sm|]. eapply T1; eauto.
      - intros n c x C X XL. exfalso. apply edges_of_in in XL. destruct (Wi ax n c x C X) as (q & Q & P).
        apply NP. rewrite (plane_at_unique b x p q); [assumption|assumption|]. eapply plane_at_same; eauto.
      - assumption. }
    exists b'. split; [assumption|]. constructor.
    + eapply same_but_ce_trans; eauto.
    + auto.
    + auto.
    + intros q h k Q P N. apply in_app_or in Q. destruct Q as [Q|[<-|[]]].
      * eapply found_grows; [exact G'|]. eapply Fo; eauto.
      * intros ax C A. assert (C1 : colinear_at b h k) by (eapply colinear_at_same; eauto).
        apply F'; [| |assumption|assumption|eapply axis_at_same; eauto].
        -- apply edges_of_in. eapply plane_at_same; eauto.
        -- apply edges_of_in. eapply colinear_at_plane; [eassumption|]. eapply plane_at_same; eauto.
    + intros ax n c x C X. destruct (I' ax n c x C X) as [K|(m & d & K & D)].
      * apply edges_of_in in K. exists p. split; [apply in_or_app; right; now left|]. eapply plane_at_same; eauto.
      * destruct (Wi ax m d x K D) as (q & Q & P). exists q. split; [apply in_or_app; now left|assumption].
    + intros T ax. destruct (C' T ax) as (C1 & _ & C3). split; [|assumption].
      intros n c C x y X Y N. eapply colinear_at_same; [exact Sm'|]. eapply C1; eauto.
Qed.

Lemma ce_at_groups b ax n c : ce_at b ax n c <-> nth_error (groups b ax) n = Some c.
Proof.
  unfold ce_at, groups. rewrite nth_error_map. split.
  - intros (x & -> & <-). reflexivity.
  - destruct (nth_error _ n) as [x|]; cbn; [|discriminate]. intro H. injection H as <-. now exists x.
Qed.

Lemma all_planes_in p : In p all_planes.
Proof. destruct p; cbn; tauto. Qed.
Lemma all_planes_nodup : NoDup all_planes.
Proof. repeat constructor; cbn; intuition discriminate. Qed.
