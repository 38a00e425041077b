(** The lines of an axis do not depend on the order of its policies. *)
From Coq Require Import List Arith Bool Lia QArith Qabs Lqa Sorting.Sorted Sorting.Permutation.
From Verif Require Import IntervalModel IntervalSpec IntervalProofs ManagerModel ManagerSpec ManagerProofs OrderSpec OrderValueProofs.
Import ListNotations.
Open Scope Q_scope.

(** * Sorted lists *)

Lemma sorted_unique {A} (key : A -> Q) l : forall l', Permutation l l' -> StronglySorted (fun x y => key x < key y) l ->
  StronglySorted (fun x y => key x <= key y) l' -> l = l'.
Proof.
  induction l as [|x r IH]; intros l' P Sl Sl'; [now apply Permutation_nil in P|].
  destruct l' as [|y r']; [apply Permutation_sym, Permutation_nil in P; discriminate|].
  apply StronglySorted_inv in Sl, Sl'. destruct Sl as [Sl Fl], Sl' as [Sl' Fl']. rewrite Forall_forall in Fl, Fl'.
  assert (E : x = y).
  { pose proof (Permutation_in x P (or_introl eq_refl)) as [I|I]; [congruence|]. pose proof (Permutation_in y (Permutation_sym P) (or_introl eq_refl)) as [J|J]; [congruence|].
    specialize (Fl y J). specialize (Fl' x I). lra. }
  subst y. f_equal. apply IH; [exact (Permutation_cons_inv P)|assumption|assumption].
Qed.

Lemma sorted_strict {A} (key : A -> Q) l : StronglySorted (fun x y => key x <= key y) l -> NoDup l -> (forall x y, In x l -> In y l -> x <> y -> ~ key x == key y) ->
  StronglySorted (fun x y => key x < key y) l.
Proof.
  intros Sl. induction Sl as [|x l Sl IH F]; intros N D; [constructor|]. inversion N; subst. constructor.
  - apply IH; [assumption|]. intros y z Y Z. apply D; now right.
  - rewrite Forall_forall in *. intros y Y. specialize (F y Y). assert (~ key x == key y) by (apply D; [now left|now right|congruence]). apply Qle_lteq in F. tauto.
Qed.

Lemma sorted_same l : forall l', Permutation l l' -> StronglySorted Qle l -> StronglySorted Qle l' -> Forall2 Qeq l l'.
Proof.
  induction l as [|x r IH]; intros l' P Sl Sl'; [apply Permutation_nil in P; now subst|].
  destruct l' as [|y r']; [apply Permutation_sym, Permutation_nil in P; discriminate|].
  apply StronglySorted_inv in Sl. destruct Sl as [Sl Fl]. pose proof Sl' as T. apply StronglySorted_inv in Sl'. destruct Sl' as [Sl' Fl']. rewrite Forall_forall in Fl, Fl'.
  assert (E : x == y).
  { pose proof (Permutation_in x P (or_introl eq_refl)) as [I|I]; [now rewrite I|]. pose proof (Permutation_in y (Permutation_sym P) (or_introl eq_refl)) as [J|J]; [now rewrite J|].
    specialize (Fl y J). specialize (Fl' x I). lra. }
  (* x is in y :: r' : take it out *)
  pose proof (Permutation_in x P (or_introl eq_refl)) as I. apply in_split in I. destruct I as (u & v & Ev). rewrite Ev in P.
  assert (P' : Permutation r (u ++ v)) by (apply (Permutation_cons_app_inv u v (a := x)); exact P).
  assert (Q : Forall2 Qeq r (u ++ v)).
  { apply IH; [exact P'|exact Sl|]. rewrite Ev in T. clear -T. induction u as [|z u IHu]; cbn in *; [now apply StronglySorted_inv in T|].
    apply StronglySorted_inv in T. destruct T as [T F]. constructor; [now apply IHu|]. rewrite Forall_forall in *. intros w W. apply F. apply in_app_iff in W. apply in_app_iff. cbn. tauto. }
  (* between y and x all are equal *)
  destruct u as [|z u]; cbn in Ev; injection Ev as -> Ev; [constructor; [reflexivity|]; now rewrite Ev|].
  subst r'. constructor; [exact E|].
  assert (Al : forall w, In w (z :: u) -> w == x).
  { intros w [<-|W]; [now rewrite E|]. assert (z <= w) by (apply Fl'; apply in_app_iff; now left).
    assert (w <= x). { clear -T W. apply StronglySorted_inv in T. destruct T as [T _]. induction u as [|k u IHu]; [destruct W|]. cbn in T. apply StronglySorted_inv in T. destruct T as [T F].
      destruct W as [->|W]; [|now apply IHu]. rewrite Forall_forall in F. apply F. apply in_app_iff. right. now left. }
    lra. }
  clear -Q Al. revert r Q Al. revert z. induction u as [|k u IHu]; intros z r Q Al; cbn in *.
  - inversion Q as [|y0 z0 r0 l0 Hq Qr]; subst. constructor; [|assumption]. rewrite Hq. apply Al. now left.
  - inversion Q as [|y0 z0 r0 l0 Hq Qr]; subst. constructor.
    + rewrite Hq, (Al z), (Al k); [reflexivity|auto|auto].
    + apply (IHu k); [exact Qr|]. intros w W. apply Al. destruct W; auto.
Qed.

(** * Clusters: the policies at the same place *)

Definition vals (srt : sorter) (ax : axis) : list mlp := map snd (dimension srt ax).
Definition cl (x : Q) (l : list mlp) : list mlp := filter (fun p => Qeq_bool (p_coord p) x) l.

Definition one (p : mlp) : Prop := p_policy p = ONELINE.
Definition tmin (p : mlp) : Prop := p_policy p = THIRDS /\ p_normal p = NMIN.
Definition tmax (p : mlp) : Prop := p_policy p = THIRDS /\ p_normal p = NMAX.

(** The policies that two lists will be merged into are the same. *)
Definition csim (l l' : list mlp) : Prop :=
  length l = length l' /\ ((exists p, In p l /\ one p) <-> (exists p, In p l' /\ one p)) /\ ((forall p, In p l -> tmin p) <-> (forall p, In p l' -> tmin p))
  /\ ((forall p, In p l -> tmax p) <-> (forall p, In p l' -> tmax p)) /\ (forall p p', l = [p] -> l' = [p'] -> p_d p == p_d p').
Definition csame (l l' : list mlp) : Prop := forall x, csim (cl x l) (cl x l').

Lemma cl_in x p l : In p (cl x l) <-> In p l /\ p_coord p == x.
Proof. unfold cl. rewrite filter_In, Qeq_bool_iff. reflexivity. Qed.

Lemma filter_perm {A} (f : A -> bool) l l' : Permutation l l' -> Permutation (filter f l) (filter f l').
Proof. intros P. induction P; cbn; [constructor|destruct (f x); [now constructor|assumption]|destruct (f x), (f y); try apply perm_swap; reflexivity|etransitivity; eassumption]. Qed.

Lemma csim_perm l m l' m' : Permutation l m -> Permutation l' m' -> csim l l' -> csim m m'.
Proof.
  intros P P' (A & B & C & D & E).
  assert (I : forall p, In p l <-> In p m) by (intros p; split; apply Permutation_in; [assumption|now symmetry]).
  assert (I' : forall p, In p l' <-> In p m') by (intros p; split; apply Permutation_in; [assumption|now symmetry]).
  split; [now rewrite <- (Permutation_length P), <- (Permutation_length P')|]. split; [|split; [|split]].
  - setoid_rewrite <- I. setoid_rewrite <- I'. exact B.
  - setoid_rewrite <- I. setoid_rewrite <- I'. exact C.
  - setoid_rewrite <- I. setoid_rewrite <- I'. exact D.
  - intros p p' -> ->. apply E; [now apply Permutation_length_1_inv; symmetry|now apply Permutation_length_1_inv; symmetry].
Qed.
Lemma csame_perm l m l' m' : Permutation l m -> Permutation l' m' -> csame l l' -> csame m m'.
Proof. intros P P' C x. apply (csim_perm (cl x l) _ (cl x l')); [now apply filter_perm|now apply filter_perm|apply C]. Qed.

Lemma in_pair {A B} (R : A -> B -> Prop) l l' x : Forall2 R l l' -> In x l -> exists y, In y l' /\ R x y.
Proof. intros F. induction F as [|u v l l' H F IH]; intros I; [destruct I|]. destruct I as [->|I]; [exists v; cbn; tauto|]. destruct (IH I) as (y & Y & Ry). exists y. cbn. tauto. Qed.
Lemma in_pair' {A B} (R : A -> B -> Prop) l l' y : Forall2 R l l' -> In y l' -> exists x, In x l /\ R x y.
Proof. intros F. induction F as [|u v l l' H F IH]; intros I; [destruct I|]. destruct I as [->|I]; [exists u; cbn; tauto|]. destruct (IH I) as (x & Y & Ry). exists x. cbn. tauto. Qed.

Lemma ps_csim l l' : Forall2 ps l l' -> csim l l'.
Proof.
  intros F. split; [|split; [|split; [|split]]].
  - clear -F. induction F; cbn; congruence.
  - unfold one. split; intros (p & I & O); [destruct (in_pair _ _ _ _ F I) as (q & J & _ & E & _)|destruct (in_pair' _ _ _ _ F I) as (q & J & _ & E & _)]; exists q; split; congruence.
  - unfold tmin. split; intros H p I; [destruct (in_pair' _ _ _ _ F I) as (q & J & _ & E & E2 & _)|destruct (in_pair _ _ _ _ F I) as (q & J & _ & E & E2 & _)]; specialize (H q J); intuition congruence.
  - unfold tmax. split; intros H p I; [destruct (in_pair' _ _ _ _ F I) as (q & J & _ & E & E2 & _)|destruct (in_pair _ _ _ _ F I) as (q & J & _ & E & E2 & _)]; specialize (H q J); intuition congruence.
  - intros p p' -> ->. inversion F as [|? ? ? ? H _]; subst. apply H.
Qed.
Lemma ps_csame l l' : Forall2 ps l l' -> csame l l'.
Proof.
  intros F x. apply ps_csim. unfold cl. induction F as [|p q l l' H F IH]; cbn; [constructor|].
  assert (E : Qeq_bool (p_coord p) x = Qeq_bool (p_coord q) x) by (apply eq_true_iff_eq; rewrite !Qeq_bool_iff; destruct H as [-> _]; reflexivity).
  rewrite E. destruct (Qeq_bool (p_coord q) x); [now constructor|assumption].
Qed.

(** Two sorted lists with the same clusters have the same coordinates. *)
Definition ceq (p q : mlp) : Prop := p_coord p == p_coord q.
Lemma coords_paired l : forall l', StronglySorted (fun x y : mlp => p_coord x <= p_coord y) l -> StronglySorted (fun x y : mlp => p_coord x <= p_coord y) l' ->
  (forall x, length (cl x l) = length (cl x l')) -> Forall2 ceq l l'.
Proof.
  assert (K : forall x (p : mlp) l, cl x (p :: l) = if Qeq_bool (p_coord p) x then p :: cl x l else cl x l) by reflexivity.
  induction l as [|p l IH]; intros [|q l'] Sl Sl' C.
  - constructor.
  - specialize (C (p_coord q)). rewrite K, (proj2 (Qeq_bool_iff _ _) (Qeq_refl _)) in C. discriminate.
  - specialize (C (p_coord p)). rewrite K, (proj2 (Qeq_bool_iff _ _) (Qeq_refl _)) in C. discriminate.
  - apply StronglySorted_inv in Sl, Sl'. destruct Sl as [Sl F], Sl' as [Sl' F']. rewrite Forall_forall in F, F'.
    assert (E : p_coord p == p_coord q).
    { assert (A : exists r, In r (p :: l) /\ p_coord r == p_coord q).
      { pose proof (C (p_coord q)) as H. rewrite (K _ q), (proj2 (Qeq_bool_iff _ _) (Qeq_refl _)) in H. destruct (cl (p_coord q) (p :: l)) as [|r m] eqn:X; [discriminate|]. exists r. apply cl_in. rewrite X. now left. }
      assert (B : exists r, In r (q :: l') /\ p_coord r == p_coord p).
      { pose proof (C (p_coord p)) as H. rewrite (K _ p), (proj2 (Qeq_bool_iff _ _) (Qeq_refl _)) in H. destruct (cl (p_coord p) (q :: l')) as [|r m] eqn:X; [discriminate|]. exists r. apply cl_in. rewrite X. now left. }
      destruct A as (r & [<-|Ir] & Er); [exact Er|]. destruct B as (s & [<-|Is] & Es); [now symmetry|]. specialize (F r Ir). specialize (F' s Is). cbn in *. lra. }
    constructor; [exact E|]. apply IH; [assumption|assumption|]. intros x. specialize (C x). rewrite !K in C.
    assert (X : Qeq_bool (p_coord p) x = Qeq_bool (p_coord q) x) by (apply eq_true_iff_eq; rewrite !Qeq_bool_iff, E; reflexivity). rewrite X in C. destruct (Qeq_bool (p_coord q) x); [now injection C|exact C].
Qed.

Definition strictly (l : list mlp) : Prop := StronglySorted (fun x y : mlp => p_coord x < p_coord y) l.

Lemma strictly_ceq l l' : strictly l -> Forall2 ceq l l' -> strictly l'.
Proof.
  intros Sl F. induction F as [|p q l l' E F IH]; [constructor|]. apply StronglySorted_inv in Sl. destruct Sl as [Sl G]. constructor; [now apply IH|].
  rewrite Forall_forall in *. intros y Y. destruct (in_pair' _ _ _ _ F Y) as (x & X & Ex). specialize (G x X). unfold ceq in *. lra.
Qed.

Lemma cl_strict l p x : strictly l -> In p l -> p_coord p == x -> cl x l = [p].
Proof.
  intros Sl. induction Sl as [|q l Sl IH F]; intros I E; [destruct I|]. rewrite Forall_forall in F. change (cl x (q :: l)) with (if Qeq_bool (p_coord q) x then q :: cl x l else cl x l). destruct I as [->|I].
  - rewrite (proj2 (Qeq_bool_iff _ _) E). f_equal. destruct (cl x l) as [|r m] eqn:X; [reflexivity|]. assert (J : In r (cl x l)) by (rewrite X; now left). apply cl_in in J. destruct J as [J Er]. specialize (F r J). lra.
  - specialize (F p I). destruct (Qeq_bool (p_coord q) x) eqn:X; [apply Qeq_bool_iff in X; lra|]. now apply IH.
Qed.

Lemma kind_same p p' : consistent p -> consistent p' -> csim [p] [p'] -> p_policy p = p_policy p' /\ p_normal p = p_normal p' /\ p_d p == p_d p'.
Proof.
  intros C C' (_ & O & Mi & Ma & D). specialize (D _ _ eq_refl eq_refl).
  assert (O1 : one p <-> one p') by (split; intros H; [destruct (proj1 O) as (q & [<-|[]] & Q)|destruct (proj2 O) as (q & [<-|[]] & Q)]; try assumption; [exists p|exists p']; cbn; tauto).
  assert (M1 : tmin p <-> tmin p') by (split; intros H; [apply (proj1 Mi)|apply (proj2 Mi)]; cbn; try tauto; intros q [<-|[]]; assumption).
  assert (M2 : tmax p <-> tmax p') by (split; intros H; [apply (proj1 Ma)|apply (proj2 Ma)]; cbn; try tauto; intros q [<-|[]]; assumption).
  clear O Mi Ma. unfold one, tmin, tmax, consistent in *. destruct p as [c po no e d], p' as [c' po' no' e' d']. cbn in *. 
  destruct po, no, po', no'; intuition congruence.
Qed.

Lemma strict_same l l' : strictly l -> Forall2 ceq l l' -> csame l l' -> (forall p, In p l -> consistent p /\ p_enabled p = true) -> (forall p, In p l' -> consistent p /\ p_enabled p = true) -> Forall2 ps l l'.
Proof.
  intros Sl F C G G'. pose proof (strictly_ceq _ _ Sl F) as Sl'.
  assert (H : forall m m', Forall2 ceq m m' -> (forall p, In p m -> In p l) -> (forall p, In p m' -> In p l') -> Forall2 ps m m').
  { intros m m' H. induction H as [|p q m m' E H IH]; intros I I'; [constructor|]. constructor; [|apply IH; intros; [apply I|apply I']; now right].
    pose proof (I p (or_introl eq_refl)) as Ip. pose proof (I' q (or_introl eq_refl)) as Iq. specialize (C (p_coord p)).
    rewrite (cl_strict l p _ Sl Ip (Qeq_refl _)), (cl_strict l' q _ Sl' Iq) in C by now symmetry.
    destruct (G p Ip) as [Cp Ep], (G' q Iq) as [Cq Eq]. destruct (kind_same p q Cp Cq C) as (A & B & D). split; [exact E|]. split; [exact A|]. split; [exact B|]. split; [congruence|exact D]. }
  now apply H.
Qed.

(** * The closest pair *)

Definition pairing (L L' : list (nat * mlp)) (o o' : option (Q * (nat * nat))) : Prop :=
  (o = None /\ o' = None) \/
  exists s s' pre pre' a a' b b' p p' q q' post post', o = Some (s, (a, b)) /\ o' = Some (s', (a', b')) /\ s == s'
    /\ L = pre ++ (a, p) :: (b, q) :: post /\ L' = pre' ++ (a', p') :: (b', q') :: post' /\ length pre = length pre'.

Definition cceq (x y : nat * mlp) : Prop := ceq (snd x) (snd y).

Lemma closest_paired l l' : Forall2 cceq l l' -> forall pre pre' o o', length pre = length pre' -> pairing (pre ++ l) (pre' ++ l') o o' ->
  pairing (pre ++ l) (pre' ++ l') (closest_loop l o) (closest_loop l' o').
Proof.
  intros F. induction F as [|[a p] [a' p'] l l' E F IH]; intros pre pre' o o' Ep H; [exact H|].
  destruct F as [|[b q] [b' q'] l l' E2 F]; [exact H|]. rewrite !closest_loop_cons. cbn [fst snd].
  replace (pre ++ (a, p) :: (b, q) :: l) with ((pre ++ [(a, p)]) ++ (b, q) :: l) in * by (now rewrite <- app_assoc).
  replace (pre' ++ (a', p') :: (b', q') :: l') with ((pre' ++ [(a', p')]) ++ (b', q') :: l') in * by (now rewrite <- app_assoc).
  apply IH; [rewrite !app_length; cbn; lia|].
  assert (Ds : coord_distance (p_coord p) (p_coord q) == coord_distance (p_coord p') (p_coord q')) by (unfold cceq, ceq in *; cbn [snd] in *; now rewrite E, E2).
  assert (New : pairing ((pre ++ [(a, p)]) ++ (b, q) :: l) ((pre' ++ [(a', p')]) ++ (b', q') :: l') (Some (coord_distance (p_coord p) (p_coord q), (a, b))) (Some (coord_distance (p_coord p') (p_coord q'), (a', b')))).
  { right. do 2 eexists. exists pre, pre', a, a', b, b', p, p', q, q', l, l'. rewrite <- !app_assoc. cbn. now repeat split. }
  destruct H as [[-> ->]|H]; [exact New|].
  pose proof H as (s & s' & pr & pr' & x & x' & y & y' & u & u' & v & v' & po & po' & -> & -> & Es & _).
  rewrite (Qltb_m _ _ Ds _ _ Es). destruct (Qltb _ s'); [exact New|]. now right.
Qed.

Lemma detect_paired srt ax ax' limit : Forall2 ceq (vals srt ax) (vals srt ax') ->
  match detect_closest srt ax limit, detect_closest srt ax' limit with
  | Some (a, b), Some (a', b') => exists pre pre' p p' q q' post post', dimension srt ax = pre ++ (a, p) :: (b, q) :: post /\ dimension srt ax' = pre' ++ (a', p') :: (b', q') :: post' /\ length pre = length pre'
  | None, None => True
  | _, _ => False
  end.
Proof.
  intros V. assert (V2 : Forall2 cceq (dimension srt ax) (dimension srt ax')).
  { unfold vals in V. revert V. generalize (dimension srt ax) (dimension srt ax'). induction l as [|x l IH]; intros [|y l'] V; inversion V; subst; constructor; [assumption|now apply IH]. }
  unfold detect_closest. pose proof (closest_paired _ _ V2 [] [] None None eq_refl (or_introl (conj eq_refl eq_refl))) as H. cbn [app] in H.
  destruct H as [[-> ->]|(s & s' & pre & pre' & a & a' & b & b' & p & p' & q & q' & post & post' & -> & -> & Es & E & E' & P)]; [exact I|].
  rewrite (Qleb_comp _ _ Es limit limit (Qeq_refl _)). destruct (Qle_bool s' limit); [|exact I]. now exists pre, pre', p, p', q, q', post, post'.
Qed.

(** * One turn *)

(** The policy that replaces two. *)
Definition replacement (g : params) (p q : mlp) : list mlp :=
  match merged p q with
  | Some (policy, normal, coord) => if inconsistent policy normal then [] else [new_policy g policy normal coord true]
  | None => []
  end.

Lemma sorted_map {A B} (f : A -> B) (R : B -> B -> Prop) l : StronglySorted R (map f l) <-> StronglySorted (fun x y => R (f x) (f y)) l.
Proof.
  induction l as [|x l IH]; cbn; [split; constructor|]. split; intros H; apply StronglySorted_inv in H; destruct H as [H F]; (constructor; [now apply IH|]).
  - rewrite Forall_map in F. exact F.
  - now rewrite Forall_map.
Qed.


Lemma turn_vals g srt ax a b p q pre post ax' : sorts srt -> dimension srt ax = pre ++ (a, p) :: (b, q) :: post -> turn g ax a b p q ax' ->
  Permutation (replacement g p q ++ map snd pre ++ map snd post) (vals srt ax').
Proof.
  intros So D T.
  set (new := map (fun m => (length (ax_policies ax), m)) (replacement g p q)).
  assert (New1 : (length (replacement g p q) <= 1)%nat) by (unfold replacement; destruct (merged p q) as [[[? ?] ?]|]; [destruct (inconsistent _ _)|]; cbn; lia).
  assert (E : Permutation (new ++ pre ++ post) (dimension srt ax')).
  { apply NoDup_Permutation.
      + pose proof (nodup_fst _ (dimension_nodup srt ax So)) as N. rewrite D in N.
        assert (Out : forall i r, In (i, r) (pre ++ post) -> (i < length (ax_policies ax))%nat).
        { intros i r I. assert (J : In (i, r) (dimension srt ax)) by (rewrite D; apply in_app_iff in I; apply in_app_iff; cbn; tauto). apply (dimension_in srt ax i r So) in J. destruct J as [J _]. exact (nth_lt _ _ _ J). }
        assert (N' : NoDup (pre ++ post)) by (apply NoDup_remove_1 in N; now apply NoDup_remove_1 in N).
        unfold new. destruct (replacement g p q) as [|m [|]]; cbn in New1 |- *; [assumption| |lia]. constructor; [|assumption]. intros I. specialize (Out _ _ I). lia.
      + apply nodup_fst. now apply dimension_nodup.
      + intros [i r]. rewrite (dimension_in srt ax' i r So). split.
        * intros I. apply in_app_iff in I. destruct I as [I|I].
          -- unfold new in I. apply in_map_iff in I. destruct I as (m & Em & I). injection Em as <- <-. pose proof (tu_new _ _ _ _ _ _ _ T) as Tn. unfold replacement in I.
             destruct (merged p q) as [[[po no] co]|]; [|destruct I]. destruct (inconsistent po no); [destruct I|]. destruct I as [<-|[]]. destruct Tn as (_ & Tn & _). split; [exact Tn|reflexivity].
          -- assert (J : In (i, r) (dimension srt ax)) by (rewrite D; apply in_app_iff in I; apply in_app_iff; cbn; tauto). apply (dimension_in srt ax i r So) in J. destruct J as [J En].
             split; [|exact En]. pose proof (dimension_nodup srt ax So) as N. rewrite D, map_app in N. cbn [map fst] in N.
             apply (turn_keeps g ax a b p q ax' i r T); [| |exact J].
             ++ intros ->. apply NoDup_remove_2 in N. apply N. apply in_app_iff in I. apply in_app_iff. destruct I as [I|I]; [left|right; right]; exact (in_map fst _ _ I).
             ++ intros ->. change (map fst pre ++ a :: b :: map fst post) with (map fst pre ++ [a] ++ b :: map fst post) in N. rewrite app_assoc in N. apply NoDup_remove_2 in N. apply N. apply in_app_iff in I. apply in_app_iff. destruct I as [I|I]; [left; apply in_app_iff; left|right]; exact (in_map fst _ _ I).
        * intros En. destruct En as [Pi En].
          assert (Ca : i <> a) by (intros ->; pose proof (tu_a _ _ _ _ _ _ _ T) as Ta; unfold policy_at in *; rewrite Ta in Pi; injection Pi as <-; discriminate).
          assert (Cb : i <> b) by (intros ->; pose proof (tu_b _ _ _ _ _ _ _ T) as Tb; unfold policy_at in *; rewrite Tb in Pi; injection Pi as <-; discriminate).
          destruct (lt_dec i (length (ax_policies ax))) as [L|L].
          -- unfold policy_at in Pi. rewrite (tu_other _ _ _ _ _ _ _ T i Ca Cb L) in Pi. assert (J : In (i, r) (dimension srt ax)) by (apply (dimension_in srt ax i r So); now split).
             rewrite D in J. apply in_app_iff in J. cbn in J. apply in_app_iff. right. apply in_app_iff. destruct J as [J|[J|[J|J]]]; [tauto|congruence|congruence|tauto].
          -- apply in_app_iff. left. unfold new, replacement. pose proof (tu_new _ _ _ _ _ _ _ T) as Tn. pose proof (nth_lt _ _ _ Pi) as Li.
             destruct (merged p q) as [[[po no] co]|]; [|destruct Tn as [Tn _]; lia]. destruct (inconsistent po no); [destruct Tn as [Tn _]; lia|]. destruct Tn as (Tn & Tp & _). assert (i = length (ax_policies ax)) by lia. subst i.
             unfold policy_at in *. left. congruence. }
  apply (Permutation_map snd) in E. rewrite !map_app in E. unfold new in E. rewrite map_map in E. cbn in E. rewrite map_id in E. exact E.
Qed.

(** Two policies at the same place are replaced by one there, of the kind of both. *)
Lemma replacement_here g p q : consistent p -> consistent q -> p_coord p == p_coord q -> exists m, replacement g p q = [m] /\ p_coord m == p_coord p /\ p_d m = g_dmax g / 2
  /\ (one m <-> one p \/ one q) /\ (tmin m <-> tmin p /\ tmin q) /\ (tmax m <-> tmax p /\ tmax q).
Proof.
  intros C C' E. unfold replacement. assert (Em : coord_mid (p_coord p) (p_coord q) == p_coord p) by (unfold coord_mid; rewrite <- E; field).
  destruct p as [c po no e d], q as [c' po' no' e' d']. unfold consistent, one, tmin, tmax in *. cbn in *. unfold merged. cbn.
  destruct po, no, po', no'; cbn; try (exfalso; intuition congruence);
  (eexists; split; [reflexivity|]; split; [cbn; first [exact Em|reflexivity|now symmetry]|]; split; [reflexivity|]; cbn; intuition congruence).
Qed.

(** The replacement of the same policies is the same. *)
Lemma replacement_same g p q p' q' : ps p p' -> ps q q' -> Forall2 ps (replacement g p q) (replacement g p' q').
Proof.
  intros (A & B & C & D & E) (A' & B' & C' & D' & E'). unfold replacement.
  assert (Em : coord_mid (p_coord p) (p_coord q) == coord_mid (p_coord p') (p_coord q')) by now rewrite A, A'.
  unfold merged. rewrite B, B', C, C'. destruct (p_policy p'), (p_policy q'); cbn; try (constructor; [|constructor]; now repeat split);
  destruct (p_normal p'), (p_normal q'); cbn; constructor; try constructor; now repeat split.
Qed.

Lemma app_pair {A B} (R : A -> B -> Prop) u : forall u' v v', length u = length u' -> Forall2 R (u ++ v) (u' ++ v') -> Forall2 R u u' /\ Forall2 R v v'.
Proof. induction u as [|x u IH]; intros [|y u'] v v' L F; try discriminate; [split; [constructor|exact F]|]. cbn in F. inversion F; subst. destruct (IH u' v v' ltac:(now injection L) H4) as [X Y]. split; [now constructor|exact Y]. Qed.

Lemma csame_turn g pre pre' p p' q q' post post' :
  let V := pre ++ p :: q :: post in let V' := pre' ++ p' :: q' :: post' in
  length pre = length pre' -> Forall2 ceq V V' -> csame V V' -> (forall x, In x V -> consistent x /\ p_enabled x = true) -> (forall x, In x V' -> consistent x /\ p_enabled x = true) ->
  (p_coord p == p_coord q \/ strictly V) ->
  csame (replacement g p q ++ pre ++ post) (replacement g p' q' ++ pre' ++ post').
Proof.
  intros V V' L F C G G' [E|St].
  - destruct (app_pair _ _ _ _ _ L F) as [_ F2]. inversion F2 as [|? ? ? ? Ep F3]; subst. inversion F3 as [|? ? ? ? Eq _]; subst. unfold ceq in Ep, Eq.
    assert (Ip : In p V /\ In q V /\ In p' V' /\ In q' V') by (unfold V, V'; rewrite !in_app_iff; cbn; tauto). destruct Ip as (Ip & Iq & Ip' & Iq').
    destruct (replacement_here g p q (proj1 (G _ Ip)) (proj1 (G _ Iq)) E) as (m & -> & Em & Dm & Om & Nm & Xm).
    destruct (replacement_here g p' q' (proj1 (G' _ Ip')) (proj1 (G' _ Iq')) ltac:(rewrite <- Ep, <- Eq; exact E)) as (m' & -> & Em' & Dm' & Om' & Nm' & Xm').
    intros x. specialize (C x).
    assert (P : Permutation (cl x V) (cl x (p :: q :: pre ++ post))) by (apply filter_perm; unfold V; symmetry; change (p :: q :: pre ++ post) with ([p; q] ++ pre ++ post); change (p :: q :: post) with ([p; q] ++ post); rewrite !app_assoc; apply Permutation_app_tail, Permutation_app_comm).
    assert (P' : Permutation (cl x V') (cl x (p' :: q' :: pre' ++ post'))) by (apply filter_perm; unfold V'; symmetry; change (p' :: q' :: pre' ++ post') with ([p'; q'] ++ pre' ++ post'); change (p' :: q' :: post') with ([p'; q'] ++ post'); rewrite !app_assoc; apply Permutation_app_tail, Permutation_app_comm).
    apply (csim_perm _ _ _ _ P P') in C. clear P P'. revert C. generalize (pre ++ post) (pre' ++ post'). intros R R' C.
    assert (K : forall x (p : mlp) l, cl x (p :: l) = if Qeq_bool (p_coord p) x then p :: cl x l else cl x l) by reflexivity.
    assert (B : forall y, p_coord y == p_coord p -> Qeq_bool (p_coord y) x = Qeq_bool (p_coord p) x) by (intros y Y; apply eq_true_iff_eq; rewrite !Qeq_bool_iff, Y; reflexivity).
    cbn [app]. rewrite !K in *. rewrite (B q), (B p'), (B q'), ?(B m), ?(B m') in *; try (rewrite ?Em'; lra). destruct (Qeq_bool (p_coord p) x); [|exact C].
    revert C. generalize (cl x R) (cl x R'). intros l l' (CL & CO & CN & CX & _). split; [cbn in *; lia|]. split; [|split; [|split]].
    + assert (A1 : (exists r, In r (m :: l) /\ one r) <-> (exists r, In r (p :: q :: l) /\ one r)).
      { split; intros (r & I & O); cbn in I; [destruct I as [<-|I]; [apply Om in O; destruct O; [exists p|exists q]; cbn; tauto|exists r; cbn; tauto]|].
        destruct I as [<-|[<-|I]]; [exists m; split; [now left|]; apply Om; tauto..|exists r; cbn; tauto]. }
      assert (A2 : (exists r, In r (m' :: l') /\ one r) <-> (exists r, In r (p' :: q' :: l') /\ one r)).
      { split; intros (r & I & O); cbn in I; [destruct I as [<-|I]; [apply Om' in O; destruct O; [exists p'|exists q']; cbn; tauto|exists r; cbn; tauto]|].
        destruct I as [<-|[<-|I]]; [exists m'; split; [now left|]; apply Om'; tauto..|exists r; cbn; tauto]. }
      rewrite A1, A2. exact CO.
    + assert (A1 : (forall r, In r (m :: l) -> tmin r) <-> (forall r, In r (p :: q :: l) -> tmin r)).
      { split; intros H r I; cbn in I; [pose proof (proj1 Nm (H m (or_introl eq_refl))) as [Hp Hq]; destruct I as [<-|[<-|I]]; [assumption..|apply H; now right]|]. destruct I as [<-|I]; [apply Nm; split; apply H; cbn; tauto|apply H; cbn; tauto]. }
      assert (A2 : (forall r, In r (m' :: l') -> tmin r) <-> (forall r, In r (p' :: q' :: l') -> tmin r)).
      { split; intros H r I; cbn in I; [pose proof (proj1 Nm' (H m' (or_introl eq_refl))) as [Hp Hq]; destruct I as [<-|[<-|I]]; [assumption..|apply H; now right]|]. destruct I as [<-|I]; [apply Nm'; split; apply H; cbn; tauto|apply H; cbn; tauto]. }
      rewrite A1, A2. exact CN.
    + assert (A1 : (forall r, In r (m :: l) -> tmax r) <-> (forall r, In r (p :: q :: l) -> tmax r)).
      { split; intros H r I; cbn in I; [pose proof (proj1 Xm (H m (or_introl eq_refl))) as [Hp Hq]; destruct I as [<-|[<-|I]]; [assumption..|apply H; now right]|]. destruct I as [<-|I]; [apply Xm; split; apply H; cbn; tauto|apply H; cbn; tauto]. }
      assert (A2 : (forall r, In r (m' :: l') -> tmax r) <-> (forall r, In r (p' :: q' :: l') -> tmax r)).
      { split; intros H r I; cbn in I; [pose proof (proj1 Xm' (H m' (or_introl eq_refl))) as [Hp Hq]; destruct I as [<-|[<-|I]]; [assumption..|apply H; now right]|]. destruct I as [<-|I]; [apply Xm'; split; apply H; cbn; tauto|apply H; cbn; tauto]. }
      rewrite A1, A2. exact CX.
    + intros r r' Hr Hr'. injection Hr as <- _. injection Hr' as <- _. now rewrite Dm, Dm'.
  - pose proof (strict_same V V' St F C G G') as Fs. destruct (app_pair _ _ _ _ _ L Fs) as [F1 F2]. inversion F2 as [|? ? ? ? Ep F3]; subst. inversion F3 as [|? ? ? ? Eq F4]; subst.
    apply ps_csame. apply Forall2_app; [now apply replacement_same|]. now apply Forall2_app.
Qed.

Lemma vals_in srt ax p : sorts srt -> In p (vals srt ax) <-> exists i, enabled_at ax i p.
Proof.
  intros So. unfold vals. rewrite in_map_iff. split.
  - intros ([i q] & E & I). cbn in E. subst q. exists i. now apply (dimension_in srt ax i p So).
  - intros (i & En). exists (i, p). split; [reflexivity|]. now apply (dimension_in srt ax i p So).
Qed.

Lemma vals_sorted srt ax : sorts srt -> StronglySorted (fun x y : mlp => p_coord x <= p_coord y) (vals srt ax).
Proof. intros So. unfold vals. apply (sorted_map (snd (B := mlp)) (fun x y => p_coord x <= p_coord y)). now apply dimension_sorted. Qed.

Lemma vals_strict srt ax : sorts srt -> (forall i j p q, i <> j -> enabled_at ax i p -> enabled_at ax j q -> 0 < gap p q) -> strictly (vals srt ax).
Proof.
  intros So D. unfold strictly, vals. apply (sorted_map (snd (B := mlp)) (fun x y => p_coord x < p_coord y)). apply (sorted_strict (fun x : nat * mlp => p_coord (snd x))); [now apply dimension_sorted|apply nodup_fst; now apply dimension_nodup|].
  intros [i p] [j q] I J N E. apply (dimension_in srt ax _ _ So) in I, J. cbn in E. assert (H : 0 < gap p q).
  { apply (D i j p q); [|assumption|assumption]. intros ->. apply N. destruct I as [I _], J as [J _]. unfold policy_at in *. congruence. }
  unfold gap in H. rewrite E in H. setoid_replace (p_coord q - p_coord q) with 0 in H by ring. cbn in H. lra.
Qed.

Lemma vals_good srt ax : sorts srt -> all_consistent ax -> forall p, In p (vals srt ax) -> consistent p /\ p_enabled p = true.
Proof. intros So C p I. apply (vals_in srt ax p So) in I. destruct I as (i & P & E). split; [|exact E]. unfold all_consistent in C. rewrite Forall_forall in C. apply C. eapply nth_error_In. exact P. Qed.

Lemma solve_paired g srt n : sorts srt -> 0 <= g_proximity_limit g -> forall ax ax' r, settled ax -> settled ax' -> all_consistent ax -> all_consistent ax' -> csame (vals srt ax) (vals srt ax') ->
  detect_and_solve_too_close n g srt ax = Done r -> exists r', detect_and_solve_too_close n g srt ax' = Done r' /\ Forall2 ps (vals srt r) (vals srt r')
    /\ ax_segments r = ax_segments ax /\ ax_segments r' = ax_segments ax' /\ ax_lines r = ax_lines ax /\ ax_lines r' = ax_lines ax'.
Proof.
  intros So Lim. induction n as [|n IH]; intros ax ax' r Se Se' Co Co' V E; [discriminate|]. cbn [detect_and_solve_too_close] in *.
  assert (F : Forall2 ceq (vals srt ax) (vals srt ax')) by (apply coords_paired; [now apply vals_sorted|now apply vals_sorted|intros x; apply (V x)]).
  pose proof (detect_paired srt ax ax' (g_proximity_limit g) F) as H.
  destruct (detect_closest srt ax (g_proximity_limit g)) as [[a b]|] eqn:D, (detect_closest srt ax' (g_proximity_limit g)) as [[a' b']|] eqn:D'; try contradiction.
  - destruct H as (pre & pre' & p & p' & q & q' & post & post' & Ed & Ed' & Ep).
    assert (Pa : enabled_at ax a p /\ enabled_at ax b q) by (split; apply (dimension_in srt _ _ _ So); rewrite Ed; apply in_app_iff; cbn; tauto).
    assert (Pa' : enabled_at ax' a' p' /\ enabled_at ax' b' q') by (split; apply (dimension_in srt _ _ _ So); rewrite Ed'; apply in_app_iff; cbn; tauto).
    assert (Nab : a <> b). { pose proof (dimension_nodup srt ax So) as N. rewrite Ed, map_app in N. cbn in N. apply NoDup_remove_2 in N. intros ->. apply N, in_app_iff. cbn. tauto. }
    assert (Nab' : a' <> b'). { pose proof (dimension_nodup srt ax' So) as N. rewrite Ed', map_app in N. cbn in N. apply NoDup_remove_2 in N. intros ->. apply N, in_app_iff. cbn. tauto. }
    destruct Pa as [Pa Pb], Pa' as [Pa' Pb'].
    destruct (turn_ok g ax a b p q (proj1 Pa) (proj1 Pb) Nab (proj1 Se _ _ Pa) (proj1 Se _ _ Pb)) as (ax1 & ax2 & A & S2 & T).
    destruct (turn_ok g ax' a' b' p' q' (proj1 Pa') (proj1 Pb') Nab' (proj1 Se' _ _ Pa') (proj1 Se' _ _ Pb')) as (ax1' & ax2' & A' & S2' & T').
    rewrite A in E. cbn [bind] in E. rewrite S2 in E. cbn [bind] in E. rewrite A'. cbn [bind]. rewrite S2'. cbn [bind].
    rewrite <- (tu_segments _ _ _ _ _ _ _ T), <- (tu_segments _ _ _ _ _ _ _ T'), <- (tu_lines _ _ _ _ _ _ _ T), <- (tu_lines _ _ _ _ _ _ _ T').
    apply IH; [exact (turn_settled _ _ _ _ _ _ _ Se Pa Pb T)|exact (turn_settled _ _ _ _ _ _ _ Se' Pa' Pb' T')|exact (turn_consistent _ _ _ _ _ _ _ T (proj1 Pa) (proj1 Pb) Co)|exact (turn_consistent _ _ _ _ _ _ _ T' (proj1 Pa') (proj1 Pb') Co')| |exact E].
    apply (csame_perm _ _ _ _ (turn_vals g srt ax a b p q pre post ax2 So Ed T) (turn_vals g srt ax' a' b' p' q' pre' post' ax2' So Ed' T')).
    assert (Ev : vals srt ax = map snd pre ++ p :: q :: map snd post) by (unfold vals; rewrite Ed, map_app; reflexivity).
    assert (Ev' : vals srt ax' = map snd pre' ++ p' :: q' :: map snd post') by (unfold vals; rewrite Ed', map_app; reflexivity).
    pose proof (vals_good srt ax So Co) as G. pose proof (vals_good srt ax' So Co') as G'.
    assert (Cases : p_coord p == p_coord q \/ strictly (vals srt ax)).
    { destruct (Qeq_dec (p_coord p) (p_coord q)) as [Y|N]; [now left|right]. apply vals_strict; [exact So|]. intros i j u v Nij Ei Ej.
      destruct (detect_closest_some srt ax _ _ _ So D) as (pa & pb & Ea & Eb & _ & _ & _ & Min). specialize (Min i j u v Nij Ei Ej).
      assert (pa = p) by (destruct Ea as [Ea _], Pa as [Pa _]; unfold policy_at in *; congruence). assert (pb = q) by (destruct Eb as [Eb _], Pb as [Pb _]; unfold policy_at in *; congruence). subst pa pb.
      assert (0 < gap p q); [|lra]. unfold gap. destruct (Qlt_le_dec 0 (Qabs (p_coord p - p_coord q))) as [Y|Y]; [exact Y|]. exfalso. apply N. apply Qabs_Qle_condition in Y. lra. }
    rewrite Ev in F, V, G, Cases. rewrite Ev' in F, V, G'. apply csame_turn; try assumption. now rewrite !map_length.
  - injection E as <-. exists ax'. split; [reflexivity|]. split; [|now repeat split].
    apply strict_same; [|exact F|exact V|now apply vals_good|now apply vals_good]. apply vals_strict; [exact So|]. intros i j p q N Ei Ej. pose proof (detect_closest_none srt ax _ So D i j p q N Ei Ej). lra.
Qed.

Lemma vals_perm srt ax : sorts srt -> Permutation (filter p_enabled (ax_policies ax)) (vals srt ax).
Proof.
  intros So. unfold vals, dimension. destruct (So _ (fun x => p_coord (snd x)) (filter (fun x => p_enabled (snd x)) (view (ax_policies ax)))) as [P _].
  rewrite <- (Permutation_map snd P). apply Permutation_refl'. clear. unfold view. generalize 0%nat. induction (ax_policies ax) as [|p l IH]; intros k; [reflexivity|]. cbn. destruct (p_enabled p); cbn; now rewrite <- IH.
Qed.

Lemma start_same srt ax ax' : sorts srt -> same_enabled ax ax' -> csame (vals srt ax) (vals srt ax').
Proof.
  intros So Se. apply (csame_perm _ _ _ _ (vals_perm srt ax So) (vals_perm srt ax' So)). apply (csame_perm (filter p_enabled (ax_policies ax)) _ (filter p_enabled (ax_policies ax)) _ (Permutation_refl _) Se).
  apply ps_csame. clear. induction (filter p_enabled (ax_policies ax)); constructor; [apply ps_refl|assumption].
Qed.
