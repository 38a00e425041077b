(** Proofs about the walks along the wires of the graph view. *)
From Coq Require Import List Arith Bool QArith Lia Relations.Relation_Operators Relations.Operators_Properties.
From Verif Require Import IntervalModel ManagerModel ManagerSpec ManagerProofs GeomModel BoardModel BoardSpec SceneModel SceneSpec SceneProofs.
Import ListNotations.
Open Scope nat_scope.

Section Walk.
  Context (next : nat -> list nat) (U : list nat) (inU : forall m, incl (next m) U).
  Definition goes (m n : nat) : Prop := In n (next m).
  Definition far : nat -> nat -> Prop := clos_trans_1n nat goes.

  Lemma memb_in m l : memb m l = true <-> In m l.
  Proof.
    unfold memb. rewrite existsb_exists. split; [intros (x & I & E); apply Nat.eqb_eq in E; now subst|intros I; exists m; split; [exact I|apply Nat.eqb_refl]].
  Qed.

  Lemma walk fuel : forall out n, NoDup out -> incl out U -> length U - length out < fuel ->
    exists out', traverse next fuel out n = Done out' /\ NoDup out' /\ incl out' U /\ incl out out' /\ incl (next n) out' /\
      (forall x, In x out' -> In x out \/ far n x) /\ (forall x, In x out' -> In x out \/ incl (next x) out').
  Proof.
    induction fuel as [|fuel IH]; intros out n D I L; [lia|]. cbn [traverse].
    assert (G : forall l out, incl l (next n) -> NoDup out -> incl out U -> length U - length out < S fuel ->
      exists out', for_each (fun out m => if memb m out then Done out else traverse next fuel (m :: out) m) l out = Done out' /\ NoDup out' /\ incl out' U /\ incl out out' /\ incl l out' /\
        (forall x, In x out' -> In x out \/ far n x) /\ (forall x, In x out' -> In x out \/ incl (next x) out')).
    { clear out D I L. induction l as [|m r IHl]; intros out Lin D I L; cbn [for_each].
      - exists out. repeat split; auto. intros x X. exact X. intros x [].
      - assert (Fm : goes n m) by (apply Lin; now left). assert (Lr : incl r (next n)) by (intros x X; apply Lin; now right).
        destruct (memb m out) eqn:M.
        + cbn [bind]. destruct (IHl out Lr D I L) as (o & H & D' & I' & O' & R' & F' & C'). exists o. repeat split; auto.
          intros x [<-|X]; [apply O', memb_in, M|now apply R'].
        + assert (Nm : ~ In m out) by (intros X; apply memb_in in X; congruence).
          assert (Dm : NoDup (m :: out)) by now constructor. assert (Im : incl (m :: out) U) by (intros x [<-|X]; [now apply (inU n)|now apply I]).
          pose proof (NoDup_incl_length Dm Im) as Len. cbn [length] in Len.
          destruct (IH (m :: out) m Dm Im) as (o1 & H1 & D1 & I1 & O1 & N1 & F1 & C1); [cbn [length]; lia|]. rewrite H1. cbn [bind].
          assert (Lo : length (m :: out) <= length o1) by (apply NoDup_incl_length; assumption). cbn [length] in Lo.
          destruct (IHl o1 Lr D1 I1) as (o & H & D' & I' & O' & R' & F' & C'); [lia|]. exists o. repeat split; auto.
          * intros x X. apply O', O1. now right.
          * intros x [<-|X]; [apply O', O1; now left|now apply R'].
          * intros x X. destruct (F' x X) as [Y|Y]; [|now right]. destruct (F1 x Y) as [[<-|Z]|Z]; [right; now constructor|now left|right].
            exact (Relation_Operators.t1n_trans _ _ _ m _ Fm Z).
          * intros x X. destruct (C' x X) as [Y|Y]; [|now right]. destruct (C1 x Y) as [[<-|Z]|Z]; [right|now left|right]; intros y W; apply O'; [now apply N1|now apply Z]. }
    exact (G (next n) out (incl_refl _) D I L).
  Qed.

  Lemma walked fuel n : length U < fuel -> exists out, traverse next fuel [] n = Done out /\ NoDup out /\ forall m, In m out <-> far n m.
  Proof.
    intros L. destruct (walk fuel [] n) as (o & H & D & I & _ & N & F & C); [constructor|intros x []|cbn; lia|]. exists o. split; [exact H|]. split; [exact D|]. intros m. split.
    - intros M. destruct (F m M) as [[]|X]. exact X.
    - intros X. apply clos_trans_t1n_iff, clos_trans_tn1_iff in X. induction X as [m G|y z G X IHX]; [now apply N|]. destruct (C y IHX) as [[]|Y]. now apply Y.
  Qed.
End Walk.

Definition wires_inside (sc : scene) : Prop := forall w, In w (sc_wires sc) -> w_from w < length (sc_nodes sc) /\ w_to w < length (sc_nodes sc).

Lemma populate_inside b k sc : populate b k = Done sc -> wires_inside sc.
Proof.
  intros P w I. destruct (populate_wires _ _ _ P) as [_ W]. apply W in I. destruct I as (nd & E & _ & x & _ & J). apply index_some in J. destruct J as (n & H & _).
  split; [now apply nth_lt in H|now apply nth_lt in E].
Qed.

Lemma input_spec sc n m : In m (input_nodes sc n) <-> wired sc m n.
Proof.
  unfold input_nodes, wired. rewrite in_map_iff. split; intros (w & H).
  - destruct H as [E H]. apply filter_In in H. destruct H as [I H]. apply Nat.eqb_eq in H. now exists w.
  - destruct H as (I & E & F). exists w. split; [exact E|]. apply filter_In. split; [exact I|now apply Nat.eqb_eq].
Qed.
Lemma output_spec sc n m : In m (output_nodes sc n) <-> wired sc n m.
Proof.
  unfold output_nodes, wired. rewrite in_map_iff. split; intros (w & H).
  - destruct H as [E H]. apply filter_In in H. destruct H as [I H]. apply Nat.eqb_eq in H. now exists w.
  - destruct H as (I & E & F). exists w. split; [exact F|]. apply filter_In. split; [exact I|now apply Nat.eqb_eq].
Qed.

Lemma clos_same {A} (R T : A -> A -> Prop) : (forall x y, R x y -> T x y) -> forall x y, clos_trans_1n A R x y -> clos_trans_1n A T x y.
Proof. intros H x y C. induction C as [x y G|x y z G C IH]; [constructor; auto|apply Relation_Operators.t1n_trans with y; auto]. Qed.
Lemma clos_flip {A} (R T : A -> A -> Prop) : (forall x y, R x y -> T y x) -> forall x y, clos_trans_1n A R x y -> clos_trans_1n A T y x.
Proof.
  intros H x y C. apply clos_trans_t1n_iff. induction C as [x y G|x y z G C IH]; [constructor; auto|apply t_trans with y; [exact IH|constructor; auto]].
Qed.

Lemma chain sc fuel n : wires_inside sc -> length (sc_nodes sc) < fuel ->
  exists ch, get_chain fuel sc n = Done ch /\ NoDup ch /\ forall m, In m ch <-> leads_to sc m n \/ leads_to sc n m.
Proof.
  intros W L. unfold get_chain.
  destruct (walked (input_nodes sc) (seq 0 (length (sc_nodes sc)))) with (fuel := fuel) (n := n) as (up & -> & Du & Su).
  { intros m x X. apply input_spec in X. destruct X as (w & I & <- & _). apply in_seq. destruct (W w I). lia. }
  { now rewrite seq_length. }
  cbn [bind].
  destruct (walked (output_nodes sc) (seq 0 (length (sc_nodes sc)))) with (fuel := fuel) (n := n) as (dn & -> & Dd & Sd).
  { intros m x X. apply output_spec in X. destruct X as (w & I & _ & <-). apply in_seq. destruct (W w I). lia. }
  { now rewrite seq_length. }
  cbn [bind]. eexists. split; [reflexivity|]. split.
  - assert (A : forall l, NoDup l -> NoDup (up ++ filter (fun m => negb (memb m up)) l)).
    { clear - Du. induction up as [|x r IH]; cbn [app]; intros l Dl; [now apply NoDup_filter|]. inversion Du as [|x' r' Nx Dr]; subst. constructor.
      - rewrite in_app_iff, filter_In. intros [X|[_ X]]; [contradiction|]. cbn in X. rewrite Nat.eqb_refl in X. discriminate.
      - replace (filter (fun m => negb (memb m (x :: r))) l) with (filter (fun m => negb (memb m r)) (filter (fun m => negb (m =? x)) l)).
        + apply IH; [exact Dr|now apply NoDup_filter].
        + clear. induction l as [|y t IH]; [reflexivity|]. cbn [filter memb existsb]. destruct (y =? x) eqn:E; cbn [negb orb].
          * exact IH.
          * cbn [filter]. fold (memb y r). destruct (memb y r); cbn [negb]; [exact IH|now rewrite IH]. }
    now apply A.
  - intros m. rewrite in_app_iff, filter_In, Su, Sd.
    assert (A1 : far (input_nodes sc) n m <-> leads_to sc m n).
    { unfold far, leads_to. split; apply clos_flip; unfold goes; intros x y X; now apply input_spec. }
    assert (A2 : far (output_nodes sc) n m <-> leads_to sc n m).
    { unfold far, leads_to. split; apply clos_same; unfold goes; intros x y X; now apply output_spec. }
    rewrite A1, A2. split; [tauto|]. intros [H|H]; [now left|].
    destruct (memb m up) eqn:E; [left; apply A1, Su, memb_in, E|right; auto].
Qed.
