(** Lemmas on TreeModel.v. *)
From Coq Require Import List Arith Bool Lia.
From Verif Require Import HistModel HistTreeProofs TreeModel.
Import ListNotations.

Section Ind.
Variable P : tree -> Prop.
Hypothesis H : forall a cs, Forall P cs -> P (Node a cs).
Fixpoint tree_ind' (t : tree) : P t :=
  match t with
  | Node a cs => H a cs ((fix go l : Forall P l :=
      match l with [] => Forall_nil P | c :: r => Forall_cons c (tree_ind' c) (go r) end) cs)
  end.
End Ind.

Lemma in_nth {X} (l : list X) x : In x l <-> exists i, nth_error l i = Some x.
Proof. split; [apply In_nth_error | intros [i E]; eapply nth_error_In; eauto]. Qed.

Lemma cluster_self_iff t : forall a, In a (cluster_self t) <-> exists p x, at_pos t p = Some x /\ addr x = a.
Proof.
  induction t as [b cs IH] using tree_ind'. intros a. cbn [cluster_self In]. rewrite in_flat_map.
  rewrite Forall_forall in IH. split.
  - intros [<-|(c & Hc & Ha)].
    + exists [], (Node b cs). auto.
    + apply (IH c Hc) in Ha as (p & x & Hp & Hx). apply in_nth in Hc as [i Hi].
      exists (i :: p), x. cbn. now rewrite Hi.
  - intros ([|i p] & x & Hp & Hx); cbn in Hp.
    + injection Hp as <-. cbn in Hx. auto.
    + destruct (nth_error cs i) as [c|] eqn:E; [|discriminate]. right. exists c.
      split; [eapply nth_error_In; eauto|]. apply IH; [eapply nth_error_In; eauto | eauto].
Qed.

Lemma tcluster_iff b t a : In a (tcluster b t) <->
  exists p x, at_pos t p = Some x /\ addr x = a /\ (b = false -> p <> []).
Proof.
  destruct b; unfold tcluster.
  - rewrite cluster_self_iff. split; intros (p & x & H); exists p, x; intuition discriminate.
  - rewrite in_flat_map. split.
    + intros (c & Hc & Ha). apply cluster_self_iff in Ha as (p & x & Hp & Hx). apply in_nth in Hc as [i Hi].
      exists (i :: p), x. cbn. rewrite Hi. repeat split; auto; discriminate.
    + intros (p & x & Hp & Hx & Hn). destruct p as [|i p]; [exfalso; now apply Hn|]. cbn in Hp.
      destruct (nth_error (children t) i) as [c|] eqn:E; [|discriminate]. exists c.
      split; [eapply nth_error_In; eauto|]. apply cluster_self_iff. eauto.
Qed.

Lemma distinct_child a cs i c : distinct_nodes (Node a cs) -> nth_error cs i = Some c -> distinct_nodes c.
Proof.
  intros D E p q x y Hp Hq Hxy.
  assert (i :: p = i :: q) as [= ->]; [|reflexivity].
  apply (D (i :: p) (i :: q) x y); cbn; now rewrite ?E.
Qed.

Lemma NoDup_flat_map {X Y} (f : X -> list Y) l :
  (forall i x, nth_error l i = Some x -> NoDup (f x)) ->
  (forall i j x y z, nth_error l i = Some x -> nth_error l j = Some y -> In z (f x) -> In z (f y) -> i = j) ->
  NoDup (flat_map f l).
Proof.
  induction l as [|a l IH]; cbn; intros H1 H2; [constructor|].
  assert (Hl : NoDup (flat_map f l)).
  { apply IH.
    - intros i x E. now apply (H1 (S i)).
    - intros i j x y z Ei Ej Hx Hy. apply (H2 (S i) (S j) x y z) in Hy; auto. }
  pose proof (H1 0 a eq_refl) as Ha.
  assert (Dj : forall z, In z (f a) -> ~ In z (flat_map f l)).
  { intros z Hz Hin. apply in_flat_map in Hin as (b & Hb & Hzb). apply in_nth in Hb as [j Hj].
    discriminate (H2 0 (S j) a b z eq_refl Hj Hz Hzb). }
  clear IH H1 H2. induction Ha as [|z m Hz ND IHm]; cbn; [assumption|]. constructor.
  - rewrite in_app_iff. intros [?|?]; [contradiction | eapply Dj; eauto; now left].
  - apply IHm. intros y Hy. apply Dj. now right.
Qed.

Lemma cluster_NoDup t : distinct_nodes t -> NoDup (cluster_self t).
Proof.
  induction t as [a cs IH] using tree_ind'. intros D. rewrite Forall_forall in IH. cbn. constructor.
  - rewrite in_flat_map. intros (c & Hc & Ha). apply in_nth in Hc as [i Hi].
    apply cluster_self_iff in Ha as (p & x & Hp & Hx).
    discriminate (D [] (i :: p) (Node a cs) x eq_refl ltac:(cbn; now rewrite Hi) ltac:(cbn; congruence)).
  - apply NoDup_flat_map.
    + intros i c E. apply IH; [eapply nth_error_In; eauto | eapply distinct_child; eauto].
    + intros i j x y z Ei Ej Hx Hy.
      apply cluster_self_iff in Hx as (p & x' & Hp & Hx), Hy as (q & y' & Hq & Hy).
      assert (i :: p = j :: q) as [= -> _]; [|reflexivity].
      apply (D _ _ x' y'); cbn; rewrite ?Ei, ?Ej; congruence.
Qed.

Lemma tcluster_NoDup b t : distinct_nodes t -> NoDup (tcluster b t).
Proof.
  intros D. apply cluster_NoDup in D. destruct t as [a cs]. destruct b; cbn in *; [assumption|]. now inversion D.
Qed.

Lemma leafs_self_iff t : forall a, In a (leafs_self t) <-> exists p, at_pos t p = Some (Node a []).
Proof.
  induction t as [b cs IH] using tree_ind'. intros a. rewrite Forall_forall in IH.
  destruct cs as [|c0 cs].
  - cbn. split.
    + intros [->|[]]. now exists [].
    + intros [[|i p] E]; cbn in E; [injection E as ->; auto | destruct i; discriminate].
  - cbn [leafs_self]. rewrite in_flat_map. split.
    + intros (c & Hc & Ha). apply (IH c Hc) in Ha as (p & Hp). apply in_nth in Hc as [i Hi].
      exists (i :: p). cbn [at_pos children]. now rewrite Hi.
    + intros [[|i p] E]; cbn [at_pos children] in E; [discriminate|].
      destruct (nth_error (c0 :: cs) i) as [c|] eqn:Ec; [|discriminate]. exists c.
      split; [eapply nth_error_In; eauto|]. apply IH; [eapply nth_error_In; eauto | eauto].
Qed.

Lemma leafs_iff b t a : In a (leafs b t) <-> exists p, at_pos t p = Some (Node a []) /\ (b = false -> p <> []).
Proof.
  destruct t as [c [|c0 cs]].
  - destruct b; cbn; split.
    + intros [->|[]]. exists []. split; [reflexivity | discriminate].
    + intros ([|i p] & E & _); cbn in E; [injection E as ->; auto | destruct i; discriminate].
    + intros [].
    + intros ([|i p] & E & H); [now apply H | destruct i; discriminate].
  - change (leafs b (Node c (c0 :: cs))) with (leafs_self (Node c (c0 :: cs))). rewrite leafs_self_iff. split.
    + intros [p E]. exists p. split; [assumption|]. intros _ ->. discriminate.
    + intros (p & E & _). eauto.
Qed.

Lemma leafs_NoDup t : distinct_nodes t -> NoDup (leafs_self t).
Proof.
  induction t as [a cs IH] using tree_ind'. intros D. rewrite Forall_forall in IH.
  destruct cs as [|c0 cs]; [repeat constructor; intros []|]. cbn [leafs_self]. apply NoDup_flat_map.
  - intros i c E. apply IH; [eapply nth_error_In; eauto | eapply distinct_child; eauto].
  - intros i j x y z Ei Ej Hx Hy. apply leafs_self_iff in Hx as (p & Hp), Hy as (q & Hq).
    assert (i :: p = j :: q) as [= -> _]; [|reflexivity].
    apply (D _ _ (Node z []) (Node z [])); cbn [at_pos children]; rewrite ?Ei, ?Ej; auto.
Qed.

(** Erasing: what is left is what has no erased node above or at it. *)
Definition survives (nodes : list nat) (t : tree) (p : list nat) : Prop :=
  forall q r x, p = q ++ r -> q <> [] -> at_pos t q = Some x -> ~ In (addr x) nodes.

Lemma addr_terase nodes t : addr (terase nodes t) = addr t.
Proof. now destruct t. Qed.

Lemma terase_iff nodes t : forall a, In a (cluster_self (terase nodes t)) <->
  exists p x, at_pos t p = Some x /\ addr x = a /\ survives nodes t p.
Proof.
  induction t as [b cs IH] using tree_ind'. intros a. rewrite Forall_forall in IH.
  cbn [terase cluster_self In]. rewrite in_flat_map. split.
  - intros [<-|(c' & Hc & Ha)].
    + exists [], (Node b cs). repeat split; auto. intros q r x E Hq. symmetry in E.
      apply app_eq_nil in E as [-> _]. congruence.
    + apply in_flat_map in Hc as (c & Hc & Hm). destruct (mem_spec (addr c) nodes) as [|Hn]; [destruct Hm|].
      destruct Hm as [<-|[]].
      apply (IH c Hc) in Ha as (p & x & Hp & Hx & Hs). apply in_nth in Hc as [i Hi].
      exists (i :: p), x. cbn. rewrite Hi. repeat split; auto.
      intros [|j q] r y E Hq Hy; [congruence|]. injection E as <- E. cbn in Hy. rewrite Hi in Hy.
      destruct q as [|k q]; [cbn in Hy; injection Hy as <-; assumption|].
      eapply Hs; [exact E | discriminate | exact Hy].
  - intros ([|i p] & x & Hp & Hx & Hs); cbn in Hp.
    + injection Hp as <-. auto.
    + destruct (nth_error cs i) as [c|] eqn:E; [|discriminate]. right. exists (terase nodes c).
      assert (Hc : In c cs) by (eapply nth_error_In; eauto). split.
      * apply in_flat_map. exists c. split; [assumption|]. rewrite (proj2 (mem_nIn _ _)); [now left|].
        apply (Hs [i] p c); [reflexivity | discriminate | cbn; now rewrite E].
      * apply IH; [assumption|]. exists p, x. repeat split; auto.
        intros q r y Ep Hq Hy. apply (Hs (i :: q) r y); [cbn; congruence | discriminate | cbn; now rewrite E].
Qed.

(** * The two representations agree *)
Lemma at_pos_app t p q : at_pos t (p ++ q) = match at_pos t p with Some u => at_pos u q | None => None end.
Proof.
  revert t. induction p as [|i p IH]; intros t; cbn; [reflexivity|].
  destruct (nth_error (children t) i); auto.
Qed.

Lemma represents_anc h t : wf_heap h -> represents h t -> forall p v, at_pos t p = Some v ->
  forall y, In y (ancestors_self h (addr v)) <-> exists q r u, p = q ++ r /\ at_pos t q = Some u /\ addr u = y.
Proof.
  intros W R p. induction p as [|i p IH] using rev_ind; intros v Hv y.
  - cbn in Hv. injection Hv as <-.
    assert (Hin : In (addr t, null) h) by (apply R; auto).
    rewrite (anc_parent h W _ _ Hin), (anc_dead h null) by now apply wf_not_null. split.
    + intros [<-|[]]. exists [], [], t. auto.
    + intros (q & r & u & E & Hu & <-). symmetry in E. apply app_eq_nil in E as [-> ->].
      cbn in Hu. injection Hu as <-. now left.
  - assert (Hv' := Hv). rewrite at_pos_app in Hv'. destruct (at_pos t p) as [u|] eqn:Eu; [|discriminate].
    assert (Hin : In (addr v, addr u) h).
    { apply R. right. exists p, i, u, v. auto. }
    rewrite (anc_parent h W _ _ Hin). cbn [In]. rewrite (IH u eq_refl). split.
    + intros [<-|(q & r & z & -> & Hz & <-)].
      * exists (p ++ [i]), [], v. now rewrite app_nil_r.
      * exists q, (r ++ [i]), z. now rewrite app_assoc.
    + intros (q & r & z & E & Hz & <-). destruct r as [|j r] using rev_ind.
      * rewrite app_nil_r in E. subst q. left. congruence.
      * rewrite app_assoc in E. apply app_inj_tail in E as [-> ->]. right. exists q, r, z. auto.
Qed.

Lemma represents_alive h t : represents h t -> forall x, alive h x = true <-> exists p v, at_pos t p = Some v /\ addr v = x.
Proof.
  intros R x. rewrite alive_In, in_map_iff. split.
  - intros ([y q] & <- & Hin). cbn. apply R in Hin as [[-> _]|(p & i & u & v & _ & _ & Hv & <-)].
    + exists [], t. auto.
    + eauto.
  - intros (p & v & Hv & <-). destruct p as [|i p] using rev_ind.
    + injection Hv as <-. exists (addr t, null). split; [reflexivity|]. apply R. auto.
    + clear IHp. assert (Hv' := Hv). rewrite at_pos_app in Hv'. destruct (at_pos t p) as [u|] eqn:Eu; [|discriminate].
      exists (addr v, addr u). split; [reflexivity|]. apply R. right. exists p, i, u, v. auto.
Qed.

Lemma represents_cluster h t : wf_heap h -> represents h t -> distinct_nodes t ->
  forall p u, at_pos t p = Some u -> forall b a, In a (cluster h b (addr u)) <-> In a (tcluster b u).
Proof.
  intros W R D p u Hu b a. unfold cluster. rewrite filter_In, mem_In, <- (alive_In h).
  rewrite (represents_alive h t R), tcluster_iff. split.
  - intros [(q & v & Hv & <-) Ha].
    assert (Hself : In (addr u) (ancestors_self h (addr v))).
    { unfold ancestors in Ha. destruct b; [assumption|]. destruct (ancestors_self h (addr v)); [destruct Ha | now right]. }
    apply (represents_anc h t W R q v Hv) in Hself as (q1 & r & u' & -> & Hu' & E).
    assert (q1 = p) as -> by (eapply D; eauto).
    rewrite at_pos_app, Hu in Hv. exists r, v. repeat split; auto. intros -> ->.
    cbn in Hv. injection Hv as <-. unfold ancestors in Ha.
    pose proof (anc_NoDup h W (addr u)) as ND.
    assert (Al : alive h (addr u) = true) by (apply (represents_alive h t R); eauto).
    destruct (anc_alive_cons h _ Al) as [l El]. rewrite El in *. cbn in Ha. now inversion ND.
  - intros (r & v & Hv & <- & Hb).
    assert (Hpv : at_pos t (p ++ r) = Some v) by now rewrite at_pos_app, Hu.
    split; [exists (p ++ r), v; auto|].
    assert (Hself : In (addr u) (ancestors_self h (addr v))).
    { apply (represents_anc h t W R _ v Hpv). exists p, r, u. auto. }
    unfold ancestors. destruct b; [assumption|].
    assert (Al : alive h (addr v) = true) by (apply (represents_alive h t R); eauto).
    destruct (anc_alive_cons h _ Al) as [l El]. rewrite El in *. cbn. destruct Hself as [E|]; [exfalso|assumption].
    assert (p ++ r = p) as Ep by (eapply D; eauto).
    apply Hb; [reflexivity|]. rewrite <- (app_nil_r p) in Ep at 2. now apply app_inv_head in Ep.
Qed.

Lemma represents_erase h t nodes : wf_heap h -> represents h t -> distinct_nodes t ->
  forall a, alive (erase_from_descendants h (addr t) nodes) a = true <-> In a (cluster_self (terase nodes t)).
Proof.
  intros W R D a. unfold erase_from_descendants.
  rewrite (alive_filter h (fun x => negb (mem (addr t) (ancestors h false x) &&
     existsb (fun y => mem y nodes && mem (addr t) (ancestors h false y)) (ancestors h true x)))).
  rewrite andb_true_iff, negb_true_iff, terase_iff, (represents_alive h t R).
  assert (Str : forall q v, at_pos t q = Some v -> (mem (addr t) (ancestors h false (addr v)) = true <-> q <> [])).
  { intros q v Hv.
    assert (Hc := represents_cluster h t W R D [] t eq_refl false (addr v)).
    unfold cluster in Hc. rewrite filter_In in Hc.
    assert (Al : In (addr v) (map fst h)) by (apply (alive_In h), (represents_alive h t R); eauto).
    split.
    - intros Hm. destruct Hc as [Hc _]. specialize (Hc (conj Al Hm)).
      apply tcluster_iff in Hc as (q' & v' & Hv' & E & Hn).
      assert (q = q') as -> by (eapply D; eauto). now apply Hn.
    - intros Hn. apply Hc. apply tcluster_iff. exists q, v. auto. }
  split.
  - intros [Hn (p & v & Hv & <-)]. exists p, v. repeat split; auto.
    intros q r x -> Hq Hx Hin. apply not_true_iff_false in Hn. apply Hn.
    apply andb_true_iff. split.
    + apply (Str _ v Hv). intros E. apply app_eq_nil in E as [-> _]. congruence.
    + apply existsb_exists. exists (addr x). split.
      * apply (represents_anc h t W R _ v Hv). exists q, r, x. auto.
      * apply andb_true_iff. split; [now apply mem_In | now apply (Str q x Hx)].
  - intros (p & v & Hv & <- & Hs). split; [|eauto].
    apply not_true_iff_false. intros Hm. apply andb_true_iff in Hm as [_ Hm].
    apply existsb_exists in Hm as (y & Hy & Hm). apply andb_true_iff in Hm as [Hm1 Hm2].
    apply (represents_anc h t W R _ v Hv) in Hy as (q & r & x & -> & Hx & <-).
    apply (Hs q r x); auto; [now apply (Str q x Hx) | now apply mem_In].
Qed.
