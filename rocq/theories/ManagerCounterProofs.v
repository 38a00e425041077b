(** Runs that go wrong: a policy whose two lines do not match, and edits that make
    the meshing hang. *)
From Coq Require Import List Arith Bool Lia QArith Qabs Qminmax Lqa Sorting.Sorted Sorting.Permutation.
From Verif Require Import IntervalModel IntervalSpec IntervalProofs IntervalSolveProofs IntervalMeshProofs IntervalMoreProofs.
From Verif Require Import ManagerModel ManagerSpec ManagerProofs ManagerMeshProofs ManagerMoreProofs.
Import ListNotations.
Open Scope Q_scope.

(** * More fuel does not change a result *)

Lemma update_ls_mono n m di h dmax p sd sd' : update_ls n di h dmax p sd = Some sd' -> (n <= m)%nat ->
  update_ls m di h dmax p sd = Some sd'.
Proof.
  unfold update_ls. intros E L. destruct (find_ls n _ _ _ _) eqn:F; [|discriminate].
  now rewrite (find_ls_mono _ _ _ _ _ _ _ F L).
Qed.

Lemma adjust_d_loop_mono n : forall m di h dmax p sd d ls r, adjust_d_loop n di h dmax p sd d ls = Some r -> (n <= m)%nat ->
  adjust_d_loop m di h dmax p sd d ls = Some r.
Proof.
  induction n as [|n IH]; intros m di h dmax p sd d ls r E L; [discriminate|]. destruct m as [|m]; [lia|].
  cbn [adjust_d_loop] in *. destruct (is_ls_valid _ _ _ _ _); [assumption|].
  destruct (find_ls (S n) _ _ _ _) eqn:F; [|discriminate]. rewrite (find_ls_mono _ _ _ _ _ _ _ F L). apply IH; [assumption|lia].
Qed.

Lemma auto_solve_d_mono n m b a iv r : auto_solve_d n b a iv = Some r -> (n <= m)%nat -> auto_solve_d m b a iv = Some r.
Proof.
  unfold auto_solve_d, adjust_d. intros E L.
  repeat match type of E with
  | match update_ls n ?di ?h ?x ?p ?s with _ => _ end = _ =>
      let F := fresh in destruct (update_ls n di h x p s) eqn:F; [|discriminate]; rewrite (update_ls_mono _ _ _ _ _ _ _ _ F L)
  | match adjust_d_loop n ?di ?h ?x ?p ?s ?d ?ls with _ => _ end = _ =>
      let F := fresh in destruct (adjust_d_loop n di h x p s d ls) eqn:F; [|discriminate]; rewrite (adjust_d_loop_mono _ _ _ _ _ _ _ _ _ _ F L)
  end.
  exact E.
Qed.

Lemma solve_d_ends n b a iv r : auto_solve_d n b a iv = Some r -> ends (fun n => auto_solve_d n b a iv) r.
Proof. intros E. exists n. intros m L. eapply auto_solve_d_mono; eassumption. Qed.

(** * Editing a policy can make the meshing hang *)

(** All the intervals point to policies, and those with the policy [i], whose [d] is
    not positive, have some length. *)
Record bad (ax : axis) (i : nat) : Prop :=
  { bd_valid : forall k s, nth_error (ax_segments ax) k = Some s ->
      (sg_before s < length (ax_policies ax))%nat /\ (sg_after s < length (ax_policies ax))%nat;
    bd_d : exists p, policy_at ax i p /\ p_d p <= 0;
    bd_h : forall k s, nth_error (ax_segments ax) k = Some s -> touches s i ->
      0 < iv_h (sg_iv s) /\ 0 <= sd_smoothness (iv_before (sg_iv s)) /\ 0 <= sd_smoothness (iv_after (sg_iv s)) }.

Lemma di_nonpos di p d : proportional di -> d <= 0 -> di p d <= 0.
Proof. intros P D. destruct (P p) as (c & A & B & E). rewrite (E d). nra. Qed.

Lemma bad_touch n ax i k s : bad ax i -> nth_error (ax_segments ax) k = Some s -> touches s i ->
  auto_solve_d_at n ax k = Running.
Proof.
  intros [V (p & P & D) H] E T. destruct (V k s E) as [Vb Va]. destruct (H k s E T) as (Hh & Sb & Sa).
  unfold auto_solve_d_at, read. rewrite E. cbn [bind]. unfold policy_at in P.
  destruct (nth_error (ax_policies ax) (sg_before s)) as [b|] eqn:Eb; [|apply nth_error_None in Eb; lia].
  destruct (nth_error (ax_policies ax) (sg_after s)) as [a|] eqn:Ea; [|apply nth_error_None in Ea; lia].
  cbn [bind].
  assert (auto_solve_d n b a (sg_iv s) = None) as ->; [|reflexivity].
  destruct T as [T|T]; subst i.
  - assert (b = p) by congruence. subst b. apply auto_solve_d_hangs_before; auto.
    pose proof (di_nonpos d_init_before p (p_d p) before_proportional D). lra.
  - assert (a = p) by congruence. subst a. apply auto_solve_d_hangs_after; auto.
    pose proof (di_nonpos d_init_after p (p_d p) after_proportional D). lra.
Qed.

Lemma touches_dec s i : {touches s i} + {~ touches s i}.
Proof.
  unfold touches. destruct (Nat.eq_dec (sg_before s) i), (Nat.eq_dec (sg_after s) i); tauto.
Qed.

Lemma bad_step n ax i k s : bad ax i -> nth_error (ax_segments ax) k = Some s ->
  auto_solve_d_at n ax k = Running \/
  exists ax', auto_solve_d_at n ax k = Done ax' /\ bad ax' i /\ length (ax_segments ax') = length (ax_segments ax) /\
    forall j t, nth_error (ax_segments ax) j = Some t -> exists t', nth_error (ax_segments ax') j = Some t' /\
      sg_before t' = sg_before t /\ sg_after t' = sg_after t.
Proof.
  intros B E. destruct (touches_dec s i) as [T|T]; [left; eapply bad_touch; eassumption|].
  destruct B as [V (p & P & D) H]. destruct (V k s E) as [Vb Va].
  unfold auto_solve_d_at, read. rewrite E. cbn [bind].
  destruct (nth_error (ax_policies ax) (sg_before s)) as [b|] eqn:Eb; [|apply nth_error_None in Eb; lia].
  destruct (nth_error (ax_policies ax) (sg_after s)) as [a|] eqn:Ea; [|apply nth_error_None in Ea; lia].
  cbn [bind]. destruct (auto_solve_d n b a (sg_iv s)) as [[[b' a'] iv']|]; [|now left]. cbn [lift bind].
  destruct (write_spec b' (ax_policies ax) (sg_before s) Vb) as (l1 & W1 & Len1 & H1 & O1).
  destruct (write_spec a' l1 (sg_after s)) as (l2 & W2 & Len2 & H2 & O2); [lia|].
  destruct (write_spec (mk_segment (sg_before s) (sg_after s) iv') (ax_segments ax) k (nth_lt _ _ _ E)) as (ss & W3 & Len3 & H3 & O3).
  rewrite W1. cbn [bind]. rewrite W2. cbn [bind]. rewrite W3. cbn [bind]. right. eexists. split; [reflexivity|].
  unfold touches in T. cbn [set_segments set_policies ax_segments ax_policies].
  split; [|split; [assumption|]].
  - split; cbn [set_segments set_policies ax_segments ax_policies].
    + intros j t Et. rewrite Len2, Len1. destruct (Nat.eq_dec j k) as [->|Nj].
      * rewrite H3 in Et. inversion Et; subst. now split.
      * rewrite O3 in Et by assumption. eauto.
    + exists p. split; [|assumption]. unfold policy_at in *. cbn [set_segments set_policies ax_policies].
      rewrite O2, O1 by (intros X; apply T; rewrite X; tauto). assumption.
    + intros j t Et Tt. destruct (Nat.eq_dec j k) as [->|Nj].
      * rewrite H3 in Et. inversion Et; subst. unfold touches in Tt. cbn in Tt. tauto.
      * rewrite O3 in Et by assumption. eauto.
  - intros j t Et. destruct (Nat.eq_dec j k) as [->|Nj].
    + rewrite E in Et. inversion Et; subst. eexists. split; [exact H3|]. now split.
    + exists t. rewrite O3 by assumption. now repeat split.
Qed.

Lemma bad_first_pass n i order : forall ax, bad ax i -> (forall k, In k order -> (k < length (ax_segments ax))%nat) ->
  (exists k s, In k order /\ nth_error (ax_segments ax) k = Some s /\ touches s i) -> first_pass n ax order = Running.
Proof.
  induction order as [|j r IH]; intros ax B L (k & s & I & E & T); [destruct I|]. cbn [first_pass].
  assert (exists t, nth_error (ax_segments ax) j = Some t) as (t & Et).
  { destruct (nth_error (ax_segments ax) j) eqn:X; [eauto|]. apply nth_error_None in X. specialize (L j (or_introl eq_refl)). lia. }
  destruct I as [<-|I].
  - rewrite (bad_touch n ax i j s B E T). reflexivity.
  - destruct (bad_step n ax i j t B Et) as [->|(ax' & -> & B' & Len & K)]; [reflexivity|]. cbn [bind].
    apply IH; [assumption|intros q Iq; rewrite Len; apply L; now right|].
    destruct (K k s E) as (s' & E' & Hb & Ha). exists k, s'. split; [assumption|]. split; [assumption|].
    unfold touches in *. now rewrite Hb, Ha.
Qed.

Lemma combine_tl_touch {A} (l : list A) : forall j x, nth_error l j = Some x -> (2 <= length l)%nat ->
  exists u v, In (u, v) (combine l (tl l)) /\ (u = x \/ v = x).
Proof.
  induction l as [|u l IH]; intros j x X L; [cbn in L; lia|]. destruct l as [|v l]; [cbn in L; lia|].
  destruct j as [|j]; cbn in X; [inversion X; subst; exists x, v; split; [now left|now left]|].
  destruct j as [|j]; cbn in X; [inversion X; subst; exists u, x; split; [now left|now right]|].
  destruct (IH (S j) x) as (p & q & I & H); [exact X| |exists p, q; split; [now right|assumption]].
  destruct l; [destruct j; discriminate|cbn; lia].
Qed.

Lemma two_in {A} (l : list A) x y : In x l -> In y l -> x <> y -> (2 <= length l)%nat.
Proof.
  destruct l as [|u [|v l]]; intros X Y N; cbn; [destruct X| |lia].
  destruct X as [<-|[]], Y as [<-|[]]. congruence.
Qed.

Lemma hang_after_detection g srt ax ax' i p j q : sorts srt -> 0 <= g_smoothness g -> ax_segments ax = [] -> distinct ax ->
  enabled_at ax i p -> p_d p <= 0 -> enabled_at ax j q -> i <> j -> detect_intervals g srt ax = Done ax' ->
  loops (fun n => mesh_axis n srt ax').
Proof.
  intros So Sm E0 Di Ei Dp Ej N E n.
  destruct (detect_intervals_ok g srt ax So) as (ax1 & new & l & E1 & O & Cs & Ls & Len & Ss & T & F & K).
  assert (ax1 = ax') by congruence. subst ax1. rewrite E0 in Ss. cbn in Ss. subst new.
  assert (Il : In i l) by (apply O; eauto). assert (Jl : In j l) by (apply O; eauto).
  assert (Sp : same_policies ax ax').
  { apply same_of_at; [assumption|]. intros u r P. destruct (K u r P) as (p' & P' & Cl). exists p'. split; [assumption|apply Cl]. }
  assert (B : bad ax' i).
  { split.
    - intros k s Es. destruct (F s (nth_error_In _ _ Es)) as (b & a & Pb & Pa & _). unfold policy_at in *.
      rewrite Len. split; eapply nth_lt; eassumption.
    - destruct Ei as [P _]. destruct (K i p P) as (p' & P' & (_ & Le & _)). exists p'. split; [assumption|lra].
    - intros k s Es Ts. pose proof (nth_error_In _ _ Es) as Is. destruct (F s Is) as (b & a & Pb & Pa & ->). cbn.
      assert (In (sg_before s, sg_after s) (combine l (tl l))) as J.
      { rewrite <- T. apply in_map_iff. now exists s. }
      pose proof (tile_strict ax l s b a O Di J Pb Pa) as Lt. split; [|now split].
      unfold calc_h, coord_distance. rewrite Qabs_neg by lra.
      assert (- (p_coord b - p_coord a) / 2 == (p_coord a - p_coord b) * (1 # 2)) as -> by field. lra. }
  unfold mesh_axis. rewrite (bad_first_pass n i); [reflexivity|assumption| |].
  - intros k Ik. apply (Permutation_in _ (visiting_order_perm srt ax' So)) in Ik. apply in_seq in Ik. lia.
  - destruct (In_nth_error _ _ Il) as (m & Em).
    destruct (combine_tl_touch l m i Em (two_in l i j Il Jl N)) as (u & v & Iuv & H).
    rewrite <- T in Iuv. apply in_map_iff in Iuv. destruct Iuv as (s & Es & Is). inversion Es; subst u v.
    destruct (In_nth_error _ _ Is) as (k & Ek). exists k, s. split; [|split; [assumption|exact H]].
    apply (Permutation_in _ (Permutation_sym (visiting_order_perm srt ax' So))). apply in_seq. apply nth_lt in Ek. lia.
Qed.

(** * Editing an interval can make the meshing hang *)

Lemma find_ls_no_dmax n d sm dmax s ls : 0 <= sm -> dmax <= 0 -> find_ls n d sm dmax s = Some ls -> ls = [].
Proof.
  intros S D E. destruct (Qlt_le_dec 0 s) as [P|P].
  - pose proof (find_ls_hangs d sm dmax s S (or_intror D) P n) as H. cbn beta in H. congruence.
  - unfold find_ls in E. destruct n as [|n]; [discriminate|]. cbn [find_ls_loop] in E.
    destruct (Qltb_spec 0 s); [lra|]. congruence.
Qed.

Lemma adjust_d_no_dmax di h dmax p sd : 0 <= sd_smoothness sd -> dmax <= 0 ->
  forall n d, adjust_d_loop n di h dmax p sd d [] = None.
Proof.
  intros S D. induction n as [|n IH]; intros d; [reflexivity|]. cbn [adjust_d_loop].
  assert (is_ls_valid [] d (sd_smoothness sd) dmax (sd_lmin sd) = false) as ->.
  { unfold is_ls_valid. now rewrite !orb_true_r. }
  destruct (find_ls (Datatypes.S n) _ _ _ _) as [ls|] eqn:F; [|reflexivity].
  rewrite (find_ls_no_dmax _ _ _ _ _ _ S D F). apply IH.
Qed.

Lemma auto_solve_d_no_dmax n b a iv : 0 <= sd_smoothness (iv_before iv) -> iv_dmax iv <= 0 -> auto_solve_d n b a iv = None.
Proof.
  intros S D. unfold auto_solve_d, adjust_d. cbn zeta.
  destruct (update_ls n d_init_before (iv_h iv) (iv_dmax iv) b (iv_before iv)) as [s1|] eqn:U1; [|reflexivity].
  destruct (update_ls n d_init_after _ _ a (iv_after iv)) as [s2|]; [|reflexivity].
  destruct (update_ls n d_init_before (iv_h iv) (iv_dmax iv) b s1) as [s3|] eqn:U3; [|reflexivity].
  destruct (update_ls n d_init_after _ _ a s2) as [s4|]; [|reflexivity].
  assert (S1 : 0 <= sd_smoothness s1).
  { unfold update_ls in U1. destruct (find_ls n _ _ _ _); inversion U1. exact S. }
  unfold update_ls in U3. destruct (find_ls n _ _ _ _) as [ls|] eqn:F; inversion U3; subst s3.
  rewrite (find_ls_no_dmax _ _ _ _ _ _ S1 D F). cbn [sd_ls]. now rewrite adjust_d_no_dmax.
Qed.

(** All the intervals point to policies. *)
Definition pointing (ax : axis) : Prop := forall k s, nth_error (ax_segments ax) k = Some s ->
  (sg_before s < length (ax_policies ax))%nat /\ (sg_after s < length (ax_policies ax))%nat.

Lemma no_dmax_first_pass n k s order : 0 <= sd_smoothness (iv_before (sg_iv s)) -> iv_dmax (sg_iv s) <= 0 -> In k order ->
  forall ax, pointing ax -> (forall j, In j order -> (j < length (ax_segments ax))%nat) ->
  nth_error (ax_segments ax) k = Some s -> first_pass n ax order = Running.
Proof.
  intros S D. induction order as [|j r IH]; intros I ax V L E; [destruct I|]. cbn [first_pass].
  assert (exists t, nth_error (ax_segments ax) j = Some t) as (t & Et).
  { destruct (nth_error (ax_segments ax) j) eqn:X; [eauto|]. apply nth_error_None in X. specialize (L j (or_introl eq_refl)). lia. }
  destruct (V j t Et) as [Vb Va]. unfold auto_solve_d_at, read. rewrite Et. cbn [bind].
  destruct (nth_error (ax_policies ax) (sg_before t)) as [b|] eqn:Eb; [|apply nth_error_None in Eb; lia].
  destruct (nth_error (ax_policies ax) (sg_after t)) as [a|] eqn:Ea; [|apply nth_error_None in Ea; lia].
  cbn [bind]. destruct (Nat.eq_dec j k) as [->|N].
  - assert (t = s) by congruence. subst t. now rewrite auto_solve_d_no_dmax.
  - destruct (auto_solve_d n b a (sg_iv t)) as [[[b' a'] iv']|]; [|reflexivity]. cbn [lift bind].
    destruct (write_spec b' (ax_policies ax) (sg_before t) Vb) as (l1 & W1 & Len1 & _).
    destruct (write_spec a' l1 (sg_after t)) as (l2 & W2 & Len2 & _); [lia|].
    destruct (write_spec (mk_segment (sg_before t) (sg_after t) iv') (ax_segments ax) j (nth_lt _ _ _ Et)) as (ss & W3 & Len3 & H3 & O3).
    rewrite W1. cbn [bind]. rewrite W2. cbn [bind]. rewrite W3. cbn [bind].
    destruct I as [I|I]; [congruence|]. apply IH; [assumption| | |].
    + intros i u Eu. cbn [set_segments set_policies ax_segments ax_policies] in *. rewrite Len2, Len1.
      destruct (Nat.eq_dec i j) as [->|Ni]; [rewrite H3 in Eu; inversion Eu; subst; now split|]. rewrite O3 in Eu by assumption. eauto.
    + intros i Ii. cbn [set_segments set_policies ax_segments]. rewrite Len3. apply L. now right.
    + cbn [set_segments set_policies ax_segments]. rewrite O3 by congruence. assumption.
Qed.

Lemma hang_without_dmax srt ax k s : sorts srt -> pointing ax -> nth_error (ax_segments ax) k = Some s ->
  0 <= sd_smoothness (iv_before (sg_iv s)) -> iv_dmax (sg_iv s) <= 0 -> loops (fun n => mesh_axis n srt ax).
Proof.
  intros So V E S D n. unfold mesh_axis. rewrite (no_dmax_first_pass n k s); try assumption; [reflexivity| |].
  - apply (Permutation_in _ (Permutation_sym (visiting_order_perm srt ax So))). apply in_seq. apply nth_lt in E. lia.
  - intros j Ij. apply (Permutation_in _ (visiting_order_perm srt ax So)) in Ij. apply in_seq in Ij. lia.
Qed.

(** * A policy whose two lines do not match *)

Lemma d_at_mono n m ax i ax' : auto_solve_d_at n ax i = Done ax' -> (n <= m)%nat -> auto_solve_d_at m ax i = Done ax'.
Proof.
  unfold auto_solve_d_at. intros E L.
  destruct (read (ax_segments ax) i) as [s| |]; try discriminate. cbn [bind] in *.
  destruct (read (ax_policies ax) (sg_before s)) as [b| |]; try discriminate. cbn [bind] in *.
  destruct (read (ax_policies ax) (sg_after s)) as [a| |]; try discriminate. cbn [bind] in *.
  destruct (auto_solve_d n b a (sg_iv s)) as [r|] eqn:D; try discriminate.
  rewrite (auto_solve_d_mono _ _ _ _ _ _ D L). exact E.
Qed.

Lemma d_at_finishes n ax i ax' : auto_solve_d_at n ax i = Done ax' -> finishes (fun n => auto_solve_d_at n ax i) ax'.
Proof. intros E. exists n. intros m L. eapply d_at_mono; eassumption. Qed.

Lemma first_pass_mono n m order : forall ax ax', first_pass n ax order = Done ax' -> (n <= m)%nat -> first_pass m ax order = Done ax'.
Proof.
  induction order as [|i r IH]; intros ax ax' E L; [exact E|]. cbn [first_pass] in *.
  destruct (auto_solve_d_at n ax i) as [ax1| |] eqn:D; try discriminate. rewrite (d_at_mono _ _ _ _ _ D L). cbn [bind] in *. now apply IH.
Qed.

Lemma s_at_exact ax i s b a : nth_error (ax_segments ax) i = Some s ->
  policy_at ax (sg_before s) b -> policy_at ax (sg_after s) a -> ready b a (sg_iv s) ->
  exists iv' ss, finishes (fun n => auto_solve_smoothness_at n ax i) (set_segments ax ss) /\
    write (ax_segments ax) i (mk_segment (sg_before s) (sg_after s) iv') = Done ss /\ solved_s b a (sg_iv s) iv'.
Proof.
  intros Es Pb Pa R. destruct (auto_solve_smoothness_total b a (sg_iv s) R) as (iv' & E & So).
  destruct (write_spec (mk_segment (sg_before s) (sg_after s) iv') (ax_segments ax) i (nth_lt _ _ _ Es)) as (ss & W3 & _).
  exists iv', ss. split; [|now split]. unfold policy_at in *.
  unfold auto_solve_smoothness_at, read. rewrite Es. cbn [bind]. rewrite Pb, Pa. cbn [bind].
  eapply (finishes_bind (fun n => lift (auto_solve_smoothness n b a (sg_iv s)))); [apply finishes_lift; exact E|].
  cbn. rewrite W3. cbn [bind]. apply finishes_ret.
Qed.

Lemma d_at_exact ax i s b a : nth_error (ax_segments ax) i = Some s ->
  policy_at ax (sg_before s) b -> policy_at ax (sg_after s) a -> ready b a (sg_iv s) ->
  exists b' a' iv' l1 l2 ss, finishes (fun n => auto_solve_d_at n ax i) (set_segments (set_policies ax l2) ss) /\
    write (ax_policies ax) (sg_before s) b' = Done l1 /\ write l1 (sg_after s) a' = Done l2 /\
    write (ax_segments ax) i (mk_segment (sg_before s) (sg_after s) iv') = Done ss /\ solved_d b a (sg_iv s) b' a' iv'.
Proof.
  intros Es Pb Pa R. destruct (auto_solve_d_total b a (sg_iv s) R) as (b' & a' & iv' & E & So). unfold policy_at in *.
  destruct (write_spec b' (ax_policies ax) (sg_before s) (nth_lt _ _ _ Pb)) as (l1 & W1 & Len1 & _).
  destruct (write_spec a' l1 (sg_after s)) as (l2 & W2 & _); [rewrite Len1; eapply nth_lt; eassumption|].
  destruct (write_spec (mk_segment (sg_before s) (sg_after s) iv') (ax_segments ax) i (nth_lt _ _ _ Es)) as (ss & W3 & _).
  exists b', a', iv', l1, l2, ss. split; [|repeat (split; [assumption|]); assumption].
  unfold auto_solve_d_at, read. rewrite Es. cbn [bind]. rewrite Pb, Pa. cbn [bind].
  eapply (finishes_bind (fun n => lift (auto_solve_d n b a (sg_iv s)))); [apply finishes_lift; exact E|].
  cbn. rewrite W1. cbn [bind]. rewrite W2. cbn [bind]. rewrite W3. cbn [bind]. apply finishes_ret.
Qed.

Definition stale_params : params := mk_params 1 (6 # 5) 1 4.

(** Lines at 0, 17.8 and 18.9, and a HALFS policy at 8. *)
Definition stale_start : axis :=
  let add ax kind x := fst (add_meshline_policy stale_params ax kind NNONE x true) in
  add (add (add (add (mk_axis [] [] [] []) ONELINE 0) HALFS 8) ONELINE (89 # 5)) ONELINE (189 # 10).

Definition result {A} (d : A) (r : run A) : A := match r with Done x => x | _ => d end.

Definition stale_1 : axis := Eval vm_compute in result stale_start (detect_intervals stale_params isort stale_start).
Definition stale_2 : axis := Eval vm_compute in result stale_start (first_pass 20 stale_1 [2; 0; 1]%nat).
Definition stale_3 : axis := Eval vm_compute in result stale_start (auto_solve_d_at 20 stale_2 2).

Definition p0 : mlp := mk_mlp 0 ONELINE NNONE true (4 # 2).
Definition p1 : mlp := mk_mlp 8 HALFS NNONE true (4 # 2).
Definition p2 : mlp := mk_mlp (89 # 5) ONELINE NNONE true (55 # 100).
Definition p3 : mlp := mk_mlp (189 # 10) ONELINE NNONE true (55 # 100).


Lemma inner_lines b a iv iv' : ready b a iv -> solved_s b a iv iv' ->
  d_init_before b (p_d b) < iv_h iv -> d_init_after a (p_d a) < iv_h iv ->
  increasing (p_coord b :: mesh_interval b a iv' ++ [p_coord a]).
Proof.
  intros R S Hb Ha. rewrite <- (ss_h _ _ _ _ S) in Hb, Ha.
  destruct (mesh_facts b a iv' (solved_s_ready _ _ _ _ R S) (ss_solved_b _ _ _ _ S) (ss_solved_a _ _ _ _ S) Hb Ha)
    as (l1 & l2 & -> & I & _). exact I.
Qed.

Lemma stale_mesh : exists ax' x y, finishes (fun n => mesh_axis n isort stale_1) ax' /\
  In x (ax_lines ax') /\ In y (ax_lines ax') /\ x < 8 /\ 8 < y /\
  (forall z, In z (ax_lines ax') -> z <= x \/ y <= z) /\
  8 - x == 1 /\ y - 8 <= 83 # 100.
Proof.
  (* interval 2 *)
  assert (F1 : finishes (fun n => auto_solve_d_at n stale_2 2) stale_3).
  { apply (d_at_finishes 20). vm_compute. reflexivity. }
  destruct (nth_error (ax_segments stale_3) 2) as [t2|] eqn:E2; [|discriminate].
  assert (R2 : ready p2 p3 (sg_iv t2)).
  { inversion E2; subst t2. split; vm_compute; try reflexivity; discriminate. }
  assert (H2 : iv_h (sg_iv t2) = 55 # 100) by (inversion E2; reflexivity).
  destruct (s_at_exact stale_3 2 t2 p2 p3) as (iv2 & ss2 & F2 & W2 & S2);
    [exact E2|inversion E2; reflexivity|inversion E2; reflexivity|exact R2|].
  assert (I2 : increasing (p_coord p2 :: mesh_interval p2 p3 iv2 ++ [p_coord p3])).
  { apply (inner_lines p2 p3 (sg_iv t2)); [assumption..| |]; rewrite H2; reflexivity. }
  set (ax4 := set_segments stale_3 ss2) in *.
  assert (M2 : mesh_segment ax4 2 = Done (mesh_interval p2 p3 iv2)).
  { inversion E2; subst t2. cbn in W2. inversion W2; subst ss2. reflexivity. }
  (* interval 0 *)
  destruct (nth_error (ax_segments stale_3) 0) as [t0|] eqn:E0; [|discriminate].
  destruct (nth_error (ax_segments stale_3) 1) as [t1|] eqn:E1; [|discriminate].
  set (s2 := mk_segment 2 3 iv2).
  assert (X4 : ax4 = mk_axis [p0; p1; p2; p3] [] [t0; t1; s2] []).
  { unfold ax4. inversion E2; subst t2. inversion E0; subst t0. inversion E1; subst t1. cbn in W2. inversion W2; subst ss2. reflexivity. }
  assert (exists u0, finishes (fun n => auto_solve_d_at n ax4 0) (mk_axis [p0; p1; p2; p3] [] [u0; t1; s2] []) /\
     ready p0 p1 (sg_iv u0) /\ iv_h (sg_iv u0) == 4 /\ sg_before u0 = 0%nat /\ sg_after u0 = 1%nat) as (u0 & F3 & R0 & H0 & B0 & A0).
  { rewrite X4. clear -E0. inversion E0; subst t0. clear E0. eexists. split; [apply (d_at_finishes 20); vm_compute; reflexivity|].
    split; [split; vm_compute; try reflexivity; discriminate|]. repeat split. }
  set (ax5 := mk_axis [p0; p1; p2; p3] [] [u0; t1; s2] []) in *.
  destruct (s_at_exact ax5 0 u0 p0 p1) as (iv0 & ss0 & F4 & W0 & S0);
    [reflexivity|rewrite B0; reflexivity|rewrite A0; reflexivity|exact R0|].
  assert (I0 : increasing (p_coord p0 :: mesh_interval p0 p1 iv0 ++ [p_coord p1])).
  { apply (inner_lines p0 p1 (sg_iv u0)); [assumption..| |]; rewrite H0; reflexivity. }
  rewrite B0, A0 in W0. cbn in W0. inversion W0; subst ss0. clear W0.
  set (s0 := mk_segment 0 1 iv0) in *.
  set (ax6 := set_segments ax5 [s0; t1; s2]) in *.
  assert (M0 : mesh_segment ax6 0 = Done (mesh_interval p0 p1 iv0)) by reflexivity.
  (* interval 1 *)
  assert (R1 : ready p1 p2 (sg_iv t1)).
  { inversion E1; subst t1. split; vm_compute; try reflexivity; discriminate. }
  assert (D1 : iv_dmax (sg_iv t1) <= 166 # 100) by (inversion E1; subst t1; vm_compute; discriminate).
  assert (B1 : sg_before t1 = 1%nat) by (inversion E1; reflexivity).
  assert (A1 : sg_after t1 = 2%nat) by (inversion E1; reflexivity).
  destruct (d_at_exact ax6 1 t1 p1 p2) as (b & a & iv1 & l1 & l2 & ss1 & F5 & V1 & V2 & V3 & So);
    [reflexivity|rewrite B1; reflexivity|rewrite A1; reflexivity|exact R1|].
  rewrite B1 in V1, V3. rewrite A1 in V2, V3. cbn in V1, V3. inversion V1; subst l1. inversion V3; subst ss1.
  cbn in V2. inversion V2; subst l2. clear V1 V2 V3.
  set (ax7 := set_segments (set_policies ax6 [p0; b; a; p3]) [s0; mk_segment 1 2 iv1; s2]) in *.
  pose proof (solved_d_ready _ _ _ _ _ _ R1 So) as R1'.
  destruct (s_at_exact ax7 1 (mk_segment 1 2 iv1) b a) as (iv1' & ss1 & F6 & W1 & S1);
    [reflexivity|reflexivity|reflexivity|exact R1'|].
  cbn in W1. inversion W1; subst ss1. clear W1.
  set (ax8 := set_segments ax7 [s0; mk_segment 1 2 iv1'; s2]) in *.
  assert (M1 : mesh_segment ax8 1 = Done (mesh_interval b a iv1')) by reflexivity.
  assert (I1 : increasing (p_coord b :: mesh_interval b a iv1' ++ [p_coord a])).
  { apply (inner_lines b a iv1); [assumption..| |]; cbn; rewrite (sd_h _ _ _ _ _ _ So); apply So. }
  destruct (sd_b _ _ _ _ _ _ So) as (d & Eb & Ld). destruct (sd_a _ _ _ _ _ _ So) as (e & Ea & _).
  pose proof (sd_db _ _ _ _ _ _ So) as Hd. rewrite Eb in Hd. cbn in Hd.
  (* the whole *)
  set (c0 := mesh_interval p0 p1 iv0) in *. set (c1 := mesh_interval b a iv1') in *. set (c2 := mesh_interval p2 p3 iv2) in *.
  assert (P2 : finishes (fun n => second_pass n stale_2 [2; 0; 1]%nat) (ax8, [c2; c0; c1])).
  { cbn [second_pass].
    refine (finishes_bind _ _ _ _ F1 _). refine (finishes_bind _ _ _ _ F2 _).
    rewrite M2. cbn [bind].
    refine (finishes_bind _ (fun n (x : axis * list (list Q)) => let (ax, rest) := x in Done (ax, c2 :: rest)) (ax8, [c0; c1]) _ _ (finishes_ret _)).
    refine (finishes_bind _ _ _ _ F3 _). refine (finishes_bind _ _ _ _ F4 _).
    rewrite M0. cbn [bind].
    refine (finishes_bind _ (fun n (x : axis * list (list Q)) => let (ax, rest) := x in Done (ax, c0 :: rest)) (ax8, [c1]) _ _ (finishes_ret _)).
    refine (finishes_bind _ _ _ _ F5 _). refine (finishes_bind _ _ _ _ F6 _).
    rewrite M1. cbn [bind]. apply finishes_ret. }
  set (all := concat [c2; c0; c1] ++ [0; p_coord a; 189 # 10]).
  assert (Ec0 : exists r, c0 = r ++ [8 - (4 # 2) / 2]).
  { unfold c0, mesh_interval. cbn [p_policy p_coord p_d p0 p1 is_oneline d_init_after]. rewrite !app_assoc. eauto. }
  assert (Ec1 : exists r, c1 = (8 + d / 2) :: r).
  { unfold c1, mesh_interval. rewrite Eb. cbn. eauto. }
  destruct Ec0 as (r0 & Ec0). destruct Ec1 as (r1 & Ec1).
  assert (Hh : d / 2 == d * (1 # 2)) by field.
  exists (set_lines ax8 (isort Q (fun x => x) all)), (8 - (4 # 2) / 2), (8 + d / 2).
  assert (Mem : forall z, In z (isort Q (fun x => x) all) <-> In z all).
  { intros z. destruct (isort_sorts Q (fun x => x) all) as [P _]. split; intros I; [apply (Permutation_in _ (Permutation_sym P))|apply (Permutation_in _ P)]; exact I. }
  cbn [set_lines ax_lines].
  split; [|split; [|split; [|split; [reflexivity|split; [rewrite Hh; lra|split; [|split; [reflexivity|rewrite Hh; lra]]]]]]].
  - unfold mesh_axis.
    assert (visiting_order isort stale_1 = [2; 0; 1]%nat) as -> by (vm_compute; reflexivity).
    refine (finishes_bind (fun n => first_pass n stale_1 [2; 0; 1]%nat) (fun n ax => _) stale_2 _ _ _).
    { exists 20%nat. intros m L. apply (first_pass_mono 20); [vm_compute; reflexivity|assumption]. }
    refine (finishes_bind (fun n => second_pass n stale_2 _)
      (fun n x => let (ax, lines) := x in Done (set_lines ax (isort Q (fun x => x) (ax_lines ax ++ concat lines ++ flat_map mesh_policy (ax_policies ax))))) _ _ P2 _).
    assert (E : ax_lines ax8 ++ concat [c2; c0; c1] ++ flat_map mesh_policy (ax_policies ax8) = all).
    { unfold all. change (ax_lines ax8) with (@nil Q). change (ax_policies ax8) with [p0; b; a; p3]. cbn [app]. f_equal. rewrite Eb, Ea. reflexivity. }
    rewrite E. apply finishes_ret.
  - apply Mem. unfold all. cbn [concat]. rewrite !in_app_iff, Ec0, in_app_iff. cbn. tauto.
  - apply Mem. unfold all. cbn [concat]. rewrite !in_app_iff, Ec1. cbn. tauto.
  - intros z Z. apply Mem in Z. unfold all in Z. cbn [concat] in Z. rewrite !in_app_iff in Z.
    assert (Ca : p_coord a = 89 # 5) by (rewrite Ea; reflexivity).
    destruct Z as [[Z|[Z|[Z|[]]]]|Z].
    + right. assert (89 # 5 < z). { apply (increasing_lt _ _ I2). apply in_app_iff. now left. } rewrite Hh. lra.
    + left. rewrite Ec0 in Z, I0. apply in_app_iff in Z. destruct Z as [Z|[<-|[]]]; [|lra].
      apply increasing_tl in I0. rewrite <- app_assoc in I0. apply Qlt_le_weak.
      change (increasing (r0 ++ [8 - (4 # 2) / 2; p_coord p1])) in I0.
      apply (increasing_before r0); [|assumption].
      clear -I0. induction r0 as [|u [|v r] IH]; cbn in *; [exact I|tauto|]. split; [tauto|]. apply IH. tauto.
    + right. rewrite Ec1 in Z, I1. destruct Z as [<-|Z]; [lra|]. apply Qlt_le_weak. cbn [app] in I1. apply increasing_tl in I1.
      apply (increasing_lt _ _ I1). apply in_app_iff. now left.
    + rewrite Ca in Z. destruct Z as [<-|[<-|[<-|[]]]]; [left; vm_compute; discriminate|right; rewrite Hh; lra..].
Qed.
