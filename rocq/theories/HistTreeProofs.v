(** Lemmas on the history tree of HistModel.v. *)
From Coq Require Import List Arith Bool Lia.
From Verif Require Import HistModel HistSpec.
Import ListNotations.

Lemma mem_In x l : mem x l = true <-> In x l.
Proof.
  unfold mem. rewrite existsb_exists. split.
  - intros (y & H & E). apply Nat.eqb_eq in E. now subst.
  - intros H. exists x. split; [assumption | apply Nat.eqb_refl].
Qed.

Lemma mem_nIn x l : mem x l = false <-> ~ In x l.
Proof. rewrite <- mem_In. destruct (mem x l); split; congruence. Qed.

Lemma mem_spec x l : reflect (In x l) (mem x l).
Proof. destruct (mem x l) eqn:E; constructor; [now apply mem_In | now apply mem_nIn]. Qed.

Lemma assoc_In {X} k (l : list (nat * X)) x : assoc k l = Some x -> In (k, x) l.
Proof.
  induction l as [|[k' y] l IH]; cbn; [discriminate|].
  destruct (Nat.eqb_spec k k'); intros H; [left; congruence | right; auto].
Qed.

Lemma assoc_None {X} k (l : list (nat * X)) : assoc k l = None <-> ~ In k (map fst l).
Proof.
  induction l as [|[k' y] l IH]; cbn; [tauto|].
  destruct (Nat.eqb_spec k k'); subst; [split; [discriminate | intros H; exfalso; apply H; now left]|].
  rewrite IH. split; [intros H [E|E]; [now apply n | now apply H] | tauto].
Qed.

Lemma assoc_Some_iff {X} k (l : list (nat * X)) : assoc k l <> None <-> In k (map fst l).
Proof.
  pose proof (assoc_None k l) as H. destruct (assoc k l); [split; [|discriminate] | tauto].
  intros _. destruct (in_dec Nat.eq_dec k (map fst l)); [assumption|]. apply H in n. discriminate.
Qed.

Lemma assoc_app {X} k (l1 l2 : list (nat * X)) :
  assoc k (l1 ++ l2) = match assoc k l1 with Some x => Some x | None => assoc k l2 end.
Proof.
  induction l1 as [|[k' y] l IH]; cbn; [reflexivity|]. destruct (k =? k'); auto.
Qed.

Lemma assoc_filter {X} (f : nat -> bool) k (l : list (nat * X)) :
  assoc k (filter (fun e => f (fst e)) l) = if f k then assoc k l else None.
Proof.
  induction l as [|[k' y] l IH]; cbn; [now destruct (f k)|].
  destruct (f k') eqn:F; cbn; destruct (Nat.eqb_spec k k'); subst; rewrite ?F in *; auto.
Qed.

Lemma map_fst_filter {X} (f : nat -> bool) (l : list (nat * X)) :
  map fst (filter (fun e => f (fst e)) l) = filter f (map fst l).
Proof. induction l as [|[k y] l IH]; cbn; [reflexivity|]. destruct (f k); cbn; now rewrite IH. Qed.

(** * Well-formed trees *)
Fixpoint wf_heap (h : heap) : Prop :=
  match h with
  | [] => False
  | (x, p) :: r =>
      x <> null /\ alive r x = false /\
      match r with [] => p = null | _ => alive r p = true /\ wf_heap r end
  end.

Fixpoint root (h : heap) : tp :=
  match h with
  | [] => null
  | (x, _) :: r => match r with [] => x | _ => root r end
  end.

Lemma alive_In h t : alive h t = true <-> In t (map fst h).
Proof. apply mem_In. Qed.

Lemma alive_nIn h t : alive h t = false <-> ~ In t (map fst h).
Proof. apply mem_nIn. Qed.

Lemma alive_cons x p h t : alive ((x, p) :: h) t = (t =? x) || alive h t.
Proof. reflexivity. Qed.

Lemma wf_ind (P : heap -> Prop) :
  (forall r, r <> null -> P [(r, null)]) ->
  (forall x p h, wf_heap h -> x <> null -> alive h x = false -> alive h p = true -> P h -> P ((x, p) :: h)) ->
  forall h, wf_heap h -> P h.
Proof.
  intros H1 H2. induction h as [|[x p] h IH]; [intros []|].
  cbn. intros (Hx & Hd & H). destruct h as [|e h].
  - subst. now apply H1.
  - apply H2; tauto.
Qed.

Lemma wf_cons x p h : wf_heap h -> x <> null -> alive h x = false -> alive h p = true -> wf_heap ((x, p) :: h).
Proof. intros W Hx Hd Hp. destruct h; [destruct W|]. cbn in *. tauto. Qed.

Lemma wf_not_null h : wf_heap h -> alive h null = false.
Proof.
  intros W. induction W as [r Hr | x p h W Hx Hd Hp IH] using wf_ind.
  - rewrite alive_cons, orb_false_r. apply Nat.eqb_neq. congruence.
  - rewrite alive_cons, IH, orb_false_r. apply Nat.eqb_neq. congruence.
Qed.

Lemma wf_NoDup h : wf_heap h -> NoDup (map fst h).
Proof.
  intros W. induction W as [r Hr | x p h W Hx Hd Hp IH] using wf_ind; cbn; constructor; auto.
  - constructor.
  - now apply alive_nIn.
Qed.

Lemma alive_root h : wf_heap h -> alive h (root h) = true.
Proof.
  intros W. induction W as [r Hr | x p h W Hx Hd Hp IH] using wf_ind.
  - cbn. now rewrite Nat.eqb_refl.
  - rewrite alive_cons. destruct h; [destruct W|]. change (root ((x, p) :: p0 :: h)) with (root (p0 :: h)).
    now rewrite IH, orb_true_r.
Qed.

Lemma root_cons x p h : wf_heap h -> root ((x, p) :: h) = root h.
Proof. destruct h; [intros [] | reflexivity]. Qed.

(** * Ancestors *)
Lemma anc_dead h t : alive h t = false -> ancestors_self h t = [].
Proof.
  induction h as [|[x p] h IH]; [reflexivity|]. rewrite alive_cons. cbn [ancestors_self]. intros H. apply orb_false_iff in H as [H1 H2].
  rewrite Nat.eqb_sym, H1. now apply IH.
Qed.

Lemma anc_cons_ne x p h t : t <> x -> ancestors_self ((x, p) :: h) t = ancestors_self h t.
Proof. intros H. cbn. destruct (Nat.eqb_spec x t); congruence. Qed.

Lemma anc_cons_eq x p h : ancestors_self ((x, p) :: h) x = x :: ancestors_self h p.
Proof. cbn. now rewrite Nat.eqb_refl. Qed.

Lemma anc_alive_cons h t : alive h t = true -> exists l, ancestors_self h t = t :: l.
Proof.
  induction h as [|[x p] h IH]; [discriminate|]. rewrite alive_cons. cbn [ancestors_self].
  rewrite (Nat.eqb_sym x t). destruct (Nat.eqb_spec t x); cbn [orb]; intros H.
  - subst. eauto.
  - now apply IH.
Qed.

Lemma anc_self_In h t : alive h t = true -> In t (ancestors_self h t).
Proof. intros H. destruct (anc_alive_cons h t H) as [l ->]. now left. Qed.

Lemma anc_incl h t u : In u (ancestors_self h t) -> alive h u = true.
Proof.
  revert t. induction h as [|[x p] h IH]; [intros t []|]. intros t.
  rewrite alive_cons. cbn [ancestors_self]. destruct (Nat.eqb_spec x t).
  - intros [->|H]; [now rewrite Nat.eqb_refl | now rewrite (IH _ H), orb_true_r].
  - intros H. now rewrite (IH _ H), orb_true_r.
Qed.

Lemma anc_In_alive h t u : In u (ancestors_self h t) -> alive h t = true.
Proof.
  intros H. destruct (alive h t) eqn:E; [reflexivity|]. now rewrite (anc_dead h t E) in H.
Qed.

Lemma anc_NoDup h : wf_heap h -> forall t, NoDup (ancestors_self h t).
Proof.
  intros W. induction W as [r Hr | x p h W Hx Hd Hp IH] using wf_ind; intros t.
  - cbn. destruct (r =? t); repeat constructor. intros [].
  - cbn. destruct (x =? t); [|auto]. constructor; [|auto].
    intros H. apply anc_incl in H. congruence.
Qed.

(** The ancestors of an ancestor are a suffix. *)
Lemma anc_suffix h : wf_heap h -> forall t u, In u (ancestors_self h t) ->
  exists pre, ancestors_self h t = pre ++ ancestors_self h u.
Proof.
  intros W. induction W as [r Hr | x p h W Hx Hd Hp IH] using wf_ind; intros t u.
  - cbn. destruct (Nat.eqb_spec r t); intros []; try easy. subst. rewrite Nat.eqb_refl. now exists [].
  - destruct (Nat.eq_dec t x) as [->|Ht].
    + rewrite anc_cons_eq. intros [<-|Hu].
      * exists []. now rewrite anc_cons_eq.
      * destruct (IH _ _ Hu) as [pre E]. exists (x :: pre).
        rewrite anc_cons_ne; [cbn; now rewrite E|]. apply anc_incl in Hu. congruence.
    + rewrite anc_cons_ne by assumption. intros Hu. destruct (IH _ _ Hu) as [pre E].
      exists pre. rewrite anc_cons_ne; [assumption|]. apply anc_incl in Hu. congruence.
Qed.

Lemma anc_trans h : wf_heap h -> forall a b c,
  In b (ancestors_self h a) -> In c (ancestors_self h b) -> In c (ancestors_self h a).
Proof.
  intros W a b c Hb Hc. destruct (anc_suffix h W a b Hb) as [pre ->]. apply in_or_app. now right.
Qed.

Lemma anc_antisym h : wf_heap h -> forall a b,
  In b (ancestors_self h a) -> In a (ancestors_self h b) -> a = b.
Proof.
  intros W a b Hb Ha.
  destruct (anc_suffix h W a b Hb) as [p1 E1]. destruct (anc_suffix h W b a Ha) as [p2 E2].
  assert (L1 : length (ancestors_self h a) = length p1 + length (ancestors_self h b))
    by (rewrite <- app_length; congruence).
  assert (L2 : length (ancestors_self h b) = length p2 + length (ancestors_self h a))
    by (rewrite <- app_length; congruence).
  destruct p1; [|cbn in L1; lia].
  cbn in E1. destruct (anc_alive_cons h a (anc_In_alive _ _ _ Hb)) as [l Ea].
  destruct (anc_alive_cons h b (anc_In_alive _ _ _ Ha)) as [l' Eb]. congruence.
Qed.

Lemma anc_root h : wf_heap h -> forall t, alive h t = true -> last (ancestors_self h t) null = root h.
Proof.
  intros W. induction W as [r Hr | x p h W Hx Hd Hp IH] using wf_ind; intros t Ht.
  - cbn in *. rewrite orb_false_r in Ht. apply Nat.eqb_eq in Ht. subst. now rewrite Nat.eqb_refl.
  - rewrite root_cons by assumption. destruct (Nat.eq_dec t x) as [->|Hn].
    + rewrite anc_cons_eq, <- (IH p Hp). destruct (anc_alive_cons h p Hp) as [l ->]. reflexivity.
    + rewrite anc_cons_ne by assumption. apply IH. rewrite alive_cons in Ht.
      apply orb_true_iff in Ht as [Ht|Ht]; [apply Nat.eqb_eq in Ht; congruence | assumption].
Qed.

Lemma root_of_alive h t : wf_heap h -> alive h t = true -> root_of h t = root h.
Proof. intros. now apply anc_root. Qed.

Lemma last_In {X} (l : list X) d : l <> [] -> In (last l d) l.
Proof.
  induction l as [|a [|b l] IH]; [congruence | now left |]. intros _. right. now apply IH.
Qed.

Lemma anc_root_In h t : wf_heap h -> alive h t = true -> In (root h) (ancestors_self h t).
Proof.
  intros W Ht. rewrite <- (anc_root h W t Ht). apply last_In.
  destruct (anc_alive_cons h t Ht) as [l ->]. discriminate.
Qed.

(** Ancestors are what one meets following parents. *)
Lemma heap_In_alive h t p : In (t, p) h -> alive h t = true.
Proof. intros H. apply alive_In. change t with (fst (t, p)). now apply in_map. Qed.

Lemma anc_parent h : wf_heap h -> forall t p, In (t, p) h ->
  ancestors_self h t = t :: ancestors_self h p.
Proof.
  intros W. induction W as [r Hr | x q h W Hx Hd Hq IH] using wf_ind; intros t p.
  - intros [E|[]]. injection E as -> <-. cbn. rewrite Nat.eqb_refl.
    destruct (Nat.eqb_spec t null); congruence.
  - intros [E|Hin].
    + injection E as -> ->. rewrite anc_cons_eq, anc_cons_ne; [reflexivity | congruence].
    + assert (t <> x) by (intros ->; apply heap_In_alive in Hin; congruence).
      rewrite anc_cons_ne by assumption. rewrite (IH _ _ Hin). f_equal.
      symmetry. apply anc_cons_ne.
      assert (A : p = null \/ alive h p = true).
      { clear - W Hin. revert t p Hin.
        induction W as [r Hr | x p h W Hx Hd Hp IH] using wf_ind; intros t q.
        - intros [E|[]]. injection E as -> <-. now left.
        - intros [E|Hin].
          + injection E as -> ->. right. rewrite alive_cons, Hp. apply orb_true_r.
          + destruct (IH _ _ Hin) as [->|H]; [now left | right]. rewrite alive_cons, H. apply orb_true_r. }
      destruct A as [->|A]; congruence.
Qed.

Lemma reaches_anc h : wf_heap h -> forall t u, reaches h t u <-> In u (ancestors_self h t).
Proof.
  intros W t u. split.
  - induction 1 as [t p H | t p u H _ IH].
    + apply anc_self_In. eapply heap_In_alive; eauto.
    + rewrite (anc_parent h W t p H). now right.
  - revert t. induction W as [r Hr | x p h W Hx Hd Hp IH] using wf_ind; intros t.
    + cbn. destruct (Nat.eqb_spec r t); intros []; try easy. subst. econstructor. now left.
    + assert (mono : forall a b, reaches h a b -> reaches ((x, p) :: h) a b).
      { intros a b. induction 1; [eapply reaches_self | eapply reaches_parent]; eauto; right; eauto. }
      destruct (Nat.eq_dec t x) as [->|Ht].
      * rewrite anc_cons_eq. intros [<-|H].
        -- eapply reaches_self. now left.
        -- eapply reaches_parent; [now left|]. apply mono. now apply IH.
      * rewrite anc_cons_ne by assumption. intros H. apply mono. now apply IH.
Qed.

(** * Common ancestor *)
Lemma common_ancestor_eq h a b : wf_heap h -> alive h a = true ->
  (common_ancestor h a b true =? a) = mem a (ancestors_self h b).
Proof.
  intros W Ha. unfold common_ancestor, ancestors.
  pose proof (anc_NoDup h W a) as ND.
  destruct (anc_alive_cons h a Ha) as [l E]. rewrite E in *. cbn.
  destruct (mem a (ancestors_self h b)) eqn:M; [apply Nat.eqb_refl|].
  match goal with |- context [find ?f l] => destruct (find f l) eqn:F end.
  - apply find_some in F as [F _]. apply Nat.eqb_neq. intros ->. now inversion ND.
  - apply Nat.eqb_neq. intros <-. rewrite wf_not_null in Ha; congruence.
Qed.

(** * Removing the nodes outside an ancestor-closed set *)
Lemma anc_filter h (f : tp -> bool) : wf_heap h ->
  (forall t u, f t = true -> In u (ancestors_self h t) -> f u = true) ->
  forall t, f t = true -> ancestors_self (filter (fun e => f (fst e)) h) t = ancestors_self h t.
Proof.
  intros W. induction W as [r Hr | x p h W Hx Hd Hp IH] using wf_ind; intros C t Ht.
  - cbn. destruct (f r) eqn:F; cbn; [reflexivity|].
    destruct (Nat.eqb_spec r t); congruence.
  - assert (C' : forall t u, f t = true -> In u (ancestors_self h t) -> f u = true).
    { intros a b Ha Hb. apply (C a b Ha). rewrite anc_cons_ne; [assumption|].
      apply anc_In_alive in Hb. congruence. }
    cbn [filter fst]. destruct (Nat.eq_dec t x) as [->|Hn].
    + rewrite Ht, !anc_cons_eq. f_equal. apply IH; auto.
      apply (C x p Ht). rewrite anc_cons_eq. right. now apply anc_self_In.
    + destruct (f x); rewrite ?anc_cons_ne by assumption; now apply IH.
Qed.

Lemma alive_filter h (f : tp -> bool) t :
  alive (filter (fun e => f (fst e)) h) t = f t && alive h t.
Proof.
  apply eq_iff_eq_true. rewrite andb_true_iff, !alive_In, map_fst_filter, filter_In. tauto.
Qed.

Lemma wf_filter h (f : tp -> bool) : wf_heap h -> f (root h) = true ->
  (forall t u, f t = true -> In u (ancestors_self h t) -> f u = true) ->
  wf_heap (filter (fun e => f (fst e)) h) /\ root (filter (fun e => f (fst e)) h) = root h.
Proof.
  intros W. induction W as [r Hr | x p h W Hx Hd Hp IH] using wf_ind; intros R C.
  - cbn in *. rewrite R. cbn. auto.
  - rewrite root_cons in * by assumption.
    assert (C' : forall t u, f t = true -> In u (ancestors_self h t) -> f u = true).
    { intros a b Ha Hb. apply (C a b Ha). rewrite anc_cons_ne; [assumption|].
      apply anc_In_alive in Hb. congruence. }
    destruct (IH R C') as [W' R']. cbn [filter fst]. destruct (f x) eqn:F; [|auto]. split.
    + apply wf_cons; auto.
      * rewrite alive_filter, Hd. apply andb_false_r.
      * rewrite alive_filter, Hp, andb_true_r. apply (C x p F).
        rewrite anc_cons_eq. right. now apply anc_self_In.
    + now rewrite root_cons.
Qed.

(** * First ancestor satisfying a test *)
Lemma find_split {X} (f : X -> bool) l t : find f l = Some t ->
  exists l1 l2, l = l1 ++ t :: l2 /\ f t = true /\ forall y, In y l1 -> f y = false.
Proof.
  induction l as [|y l IH]; cbn; [discriminate|]. destruct (f y) eqn:Fy; intros E.
  - injection E as ->. exists [], l. repeat split; auto. intros ? [].
  - destruct (IH E) as (l1 & l2 & -> & H1 & H2). exists (y :: l1), l2. repeat split; auto.
    intros z [<-|Hz]; auto.
Qed.

Lemma anc_split h t pre c post : wf_heap h -> ancestors_self h t = pre ++ c :: post ->
  ancestors_self h c = c :: post.
Proof.
  intros W E. assert (Hc : In c (ancestors_self h t)) by (rewrite E; apply in_elt).
  destruct (anc_suffix h W _ _ Hc) as [pre' E']. pose proof (anc_NoDup h W t) as ND.
  destruct (anc_alive_cons h c (anc_incl _ _ _ Hc)) as [l El]. rewrite El in *.
  rewrite E in E', ND. clear - ND E'. f_equal.
  revert pre' E'. induction pre as [|x pre IH]; intros [|y pre'] E; cbn in *; inversion E; subst.
  - reflexivity.
  - exfalso. inversion ND; subst. apply H1. apply in_elt.
  - exfalso. inversion ND; subst. apply H1. apply in_elt.
  - inversion ND. eapply IH; eauto.
Qed.

Lemma find_nearest h b t f c : wf_heap h -> find f (ancestors h b t) = Some c ->
  In c (ancestors h b t) /\ f c = true /\
  forall x, In x (ancestors h b t) -> f x = true -> In x (ancestors_self h c).
Proof.
  intros W E. apply find_split in E as (l1 & l2 & E & Fc & Hl).
  split; [rewrite E; apply in_elt|]. split; [assumption|]. intros x Hx Fx.
  assert (Sp : exists pre, ancestors_self h t = pre ++ c :: l2).
  { unfold ancestors in E. destruct b; [eauto|].
    destruct (ancestors_self h t) as [|y l]; [destruct l1; discriminate|]. cbn in E. subst l.
    exists (y :: l1). reflexivity. }
  destruct Sp as [pre Sp]. rewrite (anc_split h t pre c l2 W Sp).
  rewrite E in Hx. apply in_app_or in Hx as [Hx|Hx]; [rewrite (Hl x Hx) in Fx; discriminate | assumption].
Qed.

Lemma common_ancestor_spec h a b incl : wf_heap h ->
  let c := common_ancestor h a b incl in
  let common x := In x (ancestors h incl a) /\ In x (ancestors h incl b) in
  (c = null /\ forall x, ~ common x) \/
  (common c /\ forall x, common x -> In x (ancestors_self h c)).
Proof.
  intros W c common. unfold c, common_ancestor.
  destruct (find (fun x => mem x (ancestors h incl b)) (ancestors h incl a)) as [y|] eqn:E.
  - right. destruct (find_nearest h incl a _ y W E) as (H1 & H2 & H3). split.
    + split; [assumption | now apply mem_In].
    + intros x [Ha Hb]. apply H3; [assumption | now apply mem_In].
  - left. split; [reflexivity|]. intros x [Ha Hb]. apply mem_In in Hb.
    now rewrite (find_none _ _ E x Ha) in Hb.
Qed.

Lemma ancestors_incl h b t x : In x (ancestors h b t) -> In x (ancestors_self h t).
Proof. unfold ancestors. destruct b; [auto|]. destruct (ancestors_self h t); [intros [] | now right]. Qed.

Lemma common_ancestor_sym h a b incl : wf_heap h ->
  common_ancestor h a b incl = common_ancestor h b a incl.
Proof.
  intros W.
  destruct (common_ancestor_spec h a b incl W) as [[E1 H1]|[[H1a H1b] H1]];
  destruct (common_ancestor_spec h b a incl W) as [[E2 H2]|[[H2a H2b] H2]].
  - congruence.
  - exfalso. eapply H1. split; eauto.
  - exfalso. eapply H2. split; eauto.
  - apply (anc_antisym h W).
    + apply H1. auto.
    + apply H2. auto.
Qed.

Lemma strict_anc h a b : wf_heap h -> (is_descendant_of h a b = true <-> In b (ancestors_self h a) /\ a <> b).
Proof.
  intros W. unfold is_descendant_of, ancestors. rewrite mem_In. pose proof (anc_NoDup h W a) as ND. split.
  - intros H. assert (In b (ancestors_self h a)) as H'.
    { destruct (ancestors_self h a); [destruct H | now right]. }
    split; [assumption|]. intros ->.
    destruct (anc_alive_cons h b (anc_In_alive _ _ _ H')) as [l El]. rewrite El in *. cbn in H. now inversion ND.
  - intros [H Hn]. destruct (anc_alive_cons h a (anc_In_alive _ _ _ H)) as [l El]. rewrite El in *. cbn.
    destruct H as [->|]; [congruence | assumption].
Qed.
