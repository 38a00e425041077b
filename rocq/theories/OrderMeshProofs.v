(** Two axes with the same policies at other addresses get the same intervals and lines. *)
From Coq Require Import List Arith Bool Lia QArith Qabs Lqa Sorting.Sorted Sorting.Permutation.
From Verif Require Import IntervalModel IntervalSpec IntervalProofs ManagerModel ManagerSpec ManagerProofs OrderSpec OrderValueProofs OrderProofs.
Import ListNotations.
Open Scope Q_scope.

Section Addresses.
(** The [k]-th policy of the first axis is at [nth k idx], that of the second one at [nth k idx']. *)
Context (idx idx' : list nat) (Nd : NoDup idx) (Nd' : NoDup idx') (Len : length idx = length idx').

Definition twin (i i' : nat) : Prop := exists k, nth_error idx k = Some i /\ nth_error idx' k = Some i'.

Lemma twin_in i i' : twin i i' -> In i idx /\ In i' idx'.
Proof. intros (k & A & B). split; eapply nth_error_In; eassumption. Qed.
Lemma twin_l i j i' : twin i i' -> twin i j -> i' = j.
Proof. intros (k & A & B) (m & C & D). assert (k = m) by (apply (NoDup_nth_error idx); [exact Nd|eapply nth_lt; exact A|congruence]). subst. congruence. Qed.
Lemma twin_r i j i' : twin i i' -> twin j i' -> i = j.
Proof. intros (k & A & B) (m & C & D). assert (k = m) by (apply (NoDup_nth_error idx'); [exact Nd'|eapply nth_lt; exact B|congruence]). subst. congruence. Qed.

Definition twins (s s' : segment) : Prop := is (sg_iv s) (sg_iv s') /\ twin (sg_before s) (sg_before s') /\ twin (sg_after s) (sg_after s').

Record alike (ax ax' : axis) : Prop := mk_alike
  { al_policies : forall i i', twin i i' -> exists p p', policy_at ax i p /\ policy_at ax' i' p' /\ ps p p';
    al_segments : Forall2 twins (ax_segments ax) (ax_segments ax');
    al_lines : ax_lines ax = ax_lines ax';
    al_rest : forall i p, enabled_at ax i p -> In i idx;
    al_rest' : forall i p, enabled_at ax' i p -> In i idx' }.

Definition follows (f f' : run axis) : Prop := forall r, f = Done r -> exists r', f' = Done r' /\ alike r r'.

Lemma write_alike ax ax' i i' x x' l : alike ax ax' -> twin i i' -> ps x x' -> write (ax_policies ax) i x = Done l ->
  exists l', write (ax_policies ax') i' x' = Done l' /\ alike (set_policies ax l) (set_policies ax' l').
Proof.
  intros [P Sg Li R R'] T Px W. destruct (P i i' T) as (p & p' & Pi & Pi' & _). destruct (write_inv _ _ _ _ W) as (L & Le & H & O).
  destruct (write_spec x' (ax_policies ax') i' (nth_lt _ _ _ Pi')) as (l' & W' & Le' & H' & O'). exists l'. split; [exact W'|]. split; cbn.
  - intros j j' Tj. unfold policy_at. cbn. destruct (Nat.eq_dec j i) as [->|N].
    + rewrite <- (twin_l _ _ _ T Tj) in *. exists x, x'. now repeat split; try apply Px.
    + assert (N' : j' <> i') by (intros ->; apply N; exact (twin_r _ _ _ Tj T)). rewrite (O j N), (O' j' N'). now apply P.
  - exact Sg.
  - exact Li.
  - intros j q [Pj En]. unfold policy_at in Pj. cbn in Pj. destruct (Nat.eq_dec j i) as [->|N]; [apply (twin_in _ _ T)|]. rewrite (O j N) in Pj. exact (R j q (conj Pj En)).
  - intros j q [Pj En]. unfold policy_at in Pj. cbn in Pj. destruct (Nat.eq_dec j i') as [->|N]; [apply (twin_in _ _ T)|]. rewrite (O' j N) in Pj. exact (R' j q (conj Pj En)).
Qed.

Lemma new_segment_alike g ax ax' b a b' a' : alike ax ax' -> twin b b' -> twin a a' -> follows (new_segment g ax b a) (new_segment g ax' b' a').
Proof.
  intros Al Tb Ta r E. unfold new_segment in *. destruct (al_policies _ _ Al b b' Tb) as (pb & pb' & Pb & Pb' & Sb), (al_policies _ _ Al a a' Ta) as (pa & pa' & Pa & Pa' & Sa).
  unfold policy_at in *. unfold read in *. rewrite Pb, Pa in E. rewrite Pb', Pa'. cbn [bind] in *. pose proof (make_m g _ _ _ _ Sb Sa) as M.
  destruct (make_interval g pb pa) as [[xb xa] iv], (make_interval g pb' pa') as [[xb' xa'] iv']. destruct M as (Mb & Ma & Mi).
  destruct (write (ax_policies ax) b xb) as [l1| |] eqn:W1; try discriminate. cbn [bind] in E. destruct (write l1 a xa) as [l2| |] eqn:W2; try discriminate. cbn [bind] in E. injection E as <-.
  destruct (write_alike ax ax' b b' xb xb' l1 Al Tb Mb W1) as (l1' & W1' & Al1). rewrite W1'. cbn [bind].
  destruct (write_alike _ _ a a' xa xa' l2 Al1 Ta Ma W2) as (l2' & W2' & Al2). cbn in W2'. rewrite W2'. cbn [bind]. eexists. split; [reflexivity|].
  destruct Al2 as [P Sg Li R R']. split; try assumption. cbn in *. apply Forall2_app; [exact Sg|]. constructor; [|constructor]. split; [exact Mi|]. now split.
Qed.

Lemma detect_alike g l : forall l' ax ax', alike ax ax' -> Forall2 twin l l' -> follows (detect_intervals_loop g ax l) (detect_intervals_loop g ax' l').
Proof.
  induction l as [|b l IH]; intros l' ax ax' Al F r E; inversion F as [|? b' ? m Tb Fl]; subst; [injection E as <-; now exists ax'|].
  destruct l as [|a l]; inversion Fl as [|? a' ? m' Ta Fm]; subst; [injection E as <-; now exists ax'|].
  cbn [detect_intervals_loop] in *. destruct (new_segment g ax b a) as [ax1| |] eqn:N; try discriminate. cbn [bind] in E.
  destruct (new_segment_alike g ax ax' b a b' a' Al Tb Ta ax1 N) as (ax1' & N' & Al1). rewrite N'. cbn [bind]. exact (IH _ ax1 ax1' Al1 Fl r E).
Qed.

Lemma zones_alike zs ax ax' : alike ax ax' -> alike (apply_zones zs ax) (apply_zones zs ax').
Proof.
  intros [P Sg Li R R']. split; try assumption. cbn. revert Sg. generalize (ax_segments ax) (ax_segments ax'). induction zs as [|z zs IH]; intros l l' F; [exact F|]. cbn. apply IH.
  clear -F. induction F as [|s s' l l' (E & A & B) F IHF]; constructor; [|exact IHF]. unfold apply_zone. rewrite (zone_m z _ _ E). destruct (in_zone z (iv_m (sg_iv s'))); (split; [|now split]); [|exact E]. destruct E as (E1 & E2 & _ & E3). split; [exact E1|]. split; [exact E2|]. split; [reflexivity|exact E3].
Qed.

Lemma segment_alike ax ax' i : alike ax ax' -> match nth_error (ax_segments ax) i with Some s => exists s', nth_error (ax_segments ax') i = Some s' /\ twins s s' | None => True end.
Proof.
  intros Al. pose proof (al_segments _ _ Al) as F. revert i. induction F as [|s s' l l' T F IH]; intros [|i]; cbn; [exact I|exact I|now exists s'|apply IH].
Qed.

Lemma write_segment_alike ax ax' i iv iv' s s' l : alike ax ax' -> twins s s' -> is iv iv' -> write (ax_segments ax) i (mk_segment (sg_before s) (sg_after s) iv) = Done l ->
  exists l', write (ax_segments ax') i (mk_segment (sg_before s') (sg_after s') iv') = Done l' /\ alike (set_segments ax l) (set_segments ax' l').
Proof.
  intros [P Sg Li R R'] (_ & Tb & Ta) Ei W.
  assert (H : exists l', write (ax_segments ax') i (mk_segment (sg_before s') (sg_after s') iv') = Done l' /\ Forall2 twins l l').
  { clear -Sg Tb Ta Ei W. revert i l W. induction Sg as [|t t' m m' T F IH]; intros [|i] l W; cbn in *; try discriminate.
    - injection W as <-. eexists. split; [reflexivity|]. constructor; [|exact F]. split; [exact Ei|now split].
    - destruct (write m i _) as [x| |] eqn:E; try discriminate. injection W as <-. destruct (IH i x E) as (x' & E' & Fx). rewrite E'. eexists. split; [reflexivity|]. now constructor. }
  destruct H as (l' & W' & F). exists l'. split; [exact W'|]. now split.
Qed.

Lemma solve_d_alike n ax ax' i : alike ax ax' -> follows (auto_solve_d_at n ax i) (auto_solve_d_at n ax' i).
Proof.
  intros Al r E. unfold auto_solve_d_at, read in *. pose proof (segment_alike ax ax' i Al) as H. destruct (nth_error (ax_segments ax) i) as [s|]; [|discriminate]. destruct H as (s' & -> & T). cbn [bind] in *.
  pose proof T as (Ei & Tb & Ta).
  destruct (al_policies _ _ Al _ _ Tb) as (pb & pb' & Pb & Pb' & Sb), (al_policies _ _ Al _ _ Ta) as (pa & pa' & Pa & Pa' & Sa).
  unfold policy_at in *. rewrite Pb, Pa in E. rewrite Pb', Pa'. cbn [bind] in *. pose proof (solve_d_m n _ _ _ _ _ _ Sb Sa Ei) as M.
  destruct (auto_solve_d n pb pa (sg_iv s)) as [[[xb xa] iv]|], (auto_solve_d n pb' pa' (sg_iv s')) as [[[xb' xa'] iv']|]; try contradiction; try discriminate. cbn [lift bind] in *. destruct M as (Mb & Ma & Mi). cbn [fst snd] in *.
  destruct (write (ax_policies ax) (sg_before s) xb) as [l1| |] eqn:W1; try discriminate. cbn [bind] in E. destruct (write l1 (sg_after s) xa) as [l2| |] eqn:W2; try discriminate. cbn [bind] in E.
  destruct (write (ax_segments ax) i _) as [l3| |] eqn:W3; try discriminate. cbn [bind] in E. injection E as <-.
  destruct (write_alike ax ax' _ _ xb xb' l1 Al Tb Mb W1) as (l1' & W1' & Al1). rewrite W1'. cbn [bind].
  destruct (write_alike _ _ _ _ xa xa' l2 Al1 Ta Ma W2) as (l2' & W2' & Al2). cbn in W2'. rewrite W2'. cbn [bind].
  destruct (write_segment_alike _ _ i iv iv' s s' l3 Al2 T Mi W3) as (l3' & W3' & Al3). cbn in W3'. rewrite W3'. cbn [bind]. eexists. split; [reflexivity|]. exact Al3.
Qed.

Lemma solve_smoothness_alike n ax ax' i : alike ax ax' -> follows (auto_solve_smoothness_at n ax i) (auto_solve_smoothness_at n ax' i).
Proof.
  intros Al r E. unfold auto_solve_smoothness_at, read in *. pose proof (segment_alike ax ax' i Al) as H. destruct (nth_error (ax_segments ax) i) as [s|]; [|discriminate]. destruct H as (s' & -> & T). cbn [bind] in *.
  pose proof T as (Ei & Tb & Ta).
  destruct (al_policies _ _ Al _ _ Tb) as (pb & pb' & Pb & Pb' & Sb), (al_policies _ _ Al _ _ Ta) as (pa & pa' & Pa & Pa' & Sa).
  unfold policy_at in *. rewrite Pb, Pa in E. rewrite Pb', Pa'. cbn [bind] in *. pose proof (solve_smooth_m n _ _ _ _ _ _ Sb Sa Ei) as M.
  destruct (auto_solve_smoothness n pb pa (sg_iv s)) as [iv|], (auto_solve_smoothness n pb' pa' (sg_iv s')) as [iv'|]; try contradiction; try discriminate. cbn [lift bind] in *.
  destruct (write (ax_segments ax) i _) as [l3| |] eqn:W3; try discriminate. cbn [bind] in E. injection E as <-.
  destruct (write_segment_alike _ _ i iv iv' s s' l3 Al T M W3) as (l3' & W3' & Al3). rewrite W3'. cbn [bind]. eexists. split; [reflexivity|]. exact Al3.
Qed.

Lemma mesh_segment_alike ax ax' i l : alike ax ax' -> mesh_segment ax i = Done l -> exists l', mesh_segment ax' i = Done l' /\ qs l l'.
Proof.
  intros Al E. unfold mesh_segment, read in *. pose proof (segment_alike ax ax' i Al) as H. destruct (nth_error (ax_segments ax) i) as [s|]; [|discriminate]. destruct H as (s' & -> & (Ei & Tb & Ta)). cbn [bind] in *.
  destruct (al_policies _ _ Al _ _ Tb) as (pb & pb' & Pb & Pb' & Sb), (al_policies _ _ Al _ _ Ta) as (pa & pa' & Pa & Pa' & Sa).
  unfold policy_at in *. rewrite Pb, Pa in E. rewrite Pb', Pa'. cbn [bind] in *. injection E as <-. eexists. split; [reflexivity|]. now apply mesh_m.
Qed.

Lemma first_alike n l : forall ax ax', alike ax ax' -> follows (first_pass n ax l) (first_pass n ax' l).
Proof.
  induction l as [|i l IH]; intros ax ax' Al r E; cbn in *; [injection E as <-; now exists ax'|].
  destruct (auto_solve_d_at n ax i) as [x| |] eqn:D; try discriminate. destruct (solve_d_alike n ax ax' i Al x D) as (x' & -> & Al1). cbn [bind] in *. exact (IH x x' Al1 r E).
Qed.

Lemma second_alike n l : forall ax ax' r ls, alike ax ax' -> second_pass n ax l = Done (r, ls) -> exists r' ls', second_pass n ax' l = Done (r', ls') /\ alike r r' /\ Forall2 qs ls ls'.
Proof.
  induction l as [|i l IH]; intros ax ax' r ls Al E; cbn in *; [injection E as <- <-; now exists ax', []|].
  destruct (auto_solve_d_at n ax i) as [x| |] eqn:D; try discriminate. destruct (solve_d_alike n ax ax' i Al x D) as (x' & -> & Al1). cbn [bind] in *.
  destruct (auto_solve_smoothness_at n x i) as [y| |] eqn:D2; try discriminate. destruct (solve_smoothness_alike n x x' i Al1 y D2) as (y' & -> & Al2). cbn [bind] in *.
  destruct (mesh_segment y i) as [m| |] eqn:D3; try discriminate. destruct (mesh_segment_alike y y' i m Al2 D3) as (m' & -> & Qm). cbn [bind] in *.
  destruct (second_pass n y l) as [[z rest]| |] eqn:D4; try discriminate. destruct (IH y y' z rest Al2 D4) as (z' & rest' & -> & Al3 & Qr). cbn [bind] in *. injection E as <- <-. exists z', (m' :: rest'). split; [reflexivity|]. split; [exact Al3|now constructor].
Qed.

Lemma view_nth {A} (l : list A) i x : In (i, x) (view l) <-> nth_error l i = Some x.
Proof. apply view_in. Qed.

Lemma order_alike srt ax ax' : natural_sort srt -> alike ax ax' -> visiting_order srt ax = visiting_order srt ax'.
Proof.
  intros [Na Ne] Al. unfold visiting_order.
  assert (Le : length (ax_segments ax) = length (ax_segments ax')) by (pose proof (al_segments _ _ Al) as F; induction F; cbn; congruence).
  set (key := fun i => match nth_error (ax_segments ax) i with Some s => iv_h (sg_iv s) | None => 0 end). set (key' := fun i => match nth_error (ax_segments ax') i with Some s => iv_h (sg_iv s) | None => 0 end).
  assert (H : forall l : list segment, map fst (srt _ (fun x => iv_h (sg_iv (snd x))) (view l)) = srt _ (fun i => match nth_error l i with Some s => iv_h (sg_iv s) | None => 0 end) (seq 0 (length l))).
  { intros l. rewrite <- (view_fst l), (Na _ _ fst). f_equal. apply Ne. intros [i s] I. apply view_nth in I. cbn. now rewrite I. }
  rewrite !H, Le. apply Ne. intros i _. pose proof (al_segments _ _ Al) as F. clear -F. revert i. induction F as [|s s' l l' (E & _) F IH]; intros [|i]; cbn; [reflexivity|reflexivity|apply E|apply IH].
Qed.

(** The enabled policies of a list, seen through the addresses of all of them. *)
Lemma enabled_through (l : list mlp) (ids : list nat) : NoDup ids -> (forall i p, nth_error l i = Some p -> p_enabled p = true -> In i ids) -> (forall i, In i ids -> (i < length l)%nat) ->
  Permutation (filter p_enabled l) (filter p_enabled (flat_map (fun i => match nth_error l i with Some p => [p] | None => [] end) ids)).
Proof.
  intros N A B.
  set (F := fun i => match nth_error l i with Some p => [p] | None => [] end). set (on := fun i => match nth_error l i with Some p => p_enabled p | None => false end).
  assert (Ha : forall js, filter p_enabled (flat_map F js) = flat_map F (filter on js)).
  { induction js as [|j js IH]; [reflexivity|]. cbn. rewrite filter_app, IH. unfold F at 1, on at 2. destruct (nth_error l j) as [p|] eqn:E; [|reflexivity]. cbn. destruct (p_enabled p) eqn:Ep; cbn; [|reflexivity]. unfold F. now rewrite E. }
  assert (Hs : flat_map F (seq 0 (length l)) = l).
  { unfold F. clear. induction l as [|x l IH]; [reflexivity|]. cbn. f_equal. rewrite <- seq_shift, flat_map_concat_map, map_map, <- flat_map_concat_map. exact IH. }
  rewrite <- Hs at 1. rewrite !Ha. apply Permutation_flat_map, NoDup_Permutation; [apply NoDup_filter, seq_NoDup|now apply NoDup_filter|].
  intros i. rewrite !filter_In, in_seq. unfold on. split; intros [H E]; (split; [|exact E]); destruct (nth_error l i) as [p|] eqn:P; try discriminate; [now apply (A i p)|]. specialize (B i H). lia.
Qed.

(** Lists of the same numbers, in any order. *)
Definition numbers (l l' : list Q) : Prop := exists m, Permutation l m /\ qs m l'.

Lemma enabled_alike ax ax' : alike ax ax' -> exists m, Permutation (filter p_enabled (ax_policies ax)) m /\ exists m', Permutation m' (filter p_enabled (ax_policies ax')) /\ Forall2 ps m m'.
Proof.
  intros [P _ _ R R'].
  assert (K : forall k, match nth_error idx k, nth_error idx' k with Some i, Some i' => exists p p', policy_at ax i p /\ policy_at ax' i' p' /\ ps p p' | None, None => True | _, _ => False end).
  { intros k. destruct (nth_error idx k) as [i|] eqn:A, (nth_error idx' k) as [i'|] eqn:B; [apply P; now exists k| | |exact I].
    - apply nth_lt in A. apply nth_error_None in B. lia.
    - apply nth_lt in B. apply nth_error_None in A. lia. }
  eexists. split.
  - apply (enabled_through (ax_policies ax) idx Nd (fun i p A B => R i p (conj A B))).
    intros i I. apply In_nth_error in I. destruct I as (k & E). specialize (K k). rewrite E in K. destruct (nth_error idx' k); [|contradiction]. destruct K as (p & p' & K & _). exact (nth_lt _ _ _ K).
  - eexists. split.
    + symmetry. apply (enabled_through (ax_policies ax') idx' Nd' (fun i p A B => R' i p (conj A B))).
      intros i' I. apply In_nth_error in I. destruct I as (k & E). specialize (K k). rewrite E in K. destruct (nth_error idx k); [|contradiction]. destruct K as (p & p' & _ & K & _). exact (nth_lt _ _ _ K).
    + clear -K Len. revert idx' Len K. induction idx as [|i l IH]; intros [|i' l'] Len K; try discriminate; [constructor|]. cbn.
      destruct (K 0%nat) as (p & p' & A & B & C). unfold policy_at in *. rewrite A, B. cbn. specialize (IH l' ltac:(now injection Len) (fun k => K (S k))). pose proof C as (_ & _ & _ & En & _). rewrite En. destruct (p_enabled p'); [now constructor|exact IH].
Qed.

Lemma mesh_policies_filter l : flat_map mesh_policy l = flat_map mesh_policy (filter p_enabled l).
Proof. induction l as [|p l IH]; [reflexivity|]. cbn. unfold mesh_policy at 1. destruct (p_enabled p) eqn:E; cbn; [|exact IH]. unfold mesh_policy at 2. now rewrite E, IH. Qed.

Lemma mesh_policies_m m m' : Forall2 ps m m' -> qs (flat_map mesh_policy m) (flat_map mesh_policy m').
Proof.
  intros F. induction F as [|p q l l' (A & B & _ & D & _) F IH]; cbn; [constructor|]. apply Forall2_app; [|exact IH]. unfold mesh_policy. rewrite B, D. destruct (p_enabled q && _); [now constructor|constructor].
Qed.

Lemma concat_m l l' : Forall2 qs l l' -> qs (concat l) (concat l').
Proof. intros F. induction F; cbn; [constructor|]. now apply Forall2_app. Qed.

Lemma sorted_qs l l' : qs l l' -> StronglySorted Qle l' -> StronglySorted Qle l.
Proof.
  intros F. induction F as [|x y l l' E F IH]; intros Sl; [constructor|]. apply StronglySorted_inv in Sl. destruct Sl as [Sl G]. constructor; [now apply IH|].
  rewrite Forall_forall in *. intros z Z. destruct (in_pair _ _ _ _ F Z) as (w & W & Ew). specialize (G w W). lra.
Qed.

Lemma qs_trans l m r : qs l m -> qs m r -> qs l r.
Proof. intros F. revert r. induction F as [|x y l m E F IH]; intros r G; inversion G as [|? z ? k H K]; subst; constructor; [now rewrite E|now apply IH]. Qed.
Lemma qs_sym l m : qs l m -> qs m l.
Proof. intros F. induction F as [|x y l m E F IH]; constructor; [now symmetry|assumption]. Qed.

Lemma same_sorted l l' u u' : numbers l l' -> Permutation l u -> Permutation l' u' -> StronglySorted Qle u -> StronglySorted Qle u' -> qs u u'.
Proof.
  intros (m & Pm & Fm) Pu Pu' Su Su'. apply qs_sym in Fm. destruct (Permutation_Forall2 Pu' Fm) as (v & Pv & Fv). apply qs_sym in Fv.
  apply (qs_trans u v u'); [|exact Fv]. apply sorted_same; [|exact Su|now apply (sorted_qs v u')]. now rewrite <- Pu, <- Pv.
Qed.

Lemma mesh_alike n srt ax ax' r : sorts srt -> natural_sort srt -> alike ax ax' -> mesh_axis n srt ax = Done r ->
  exists r', mesh_axis n srt ax' = Done r' /\ same_lines (ax_lines r) (ax_lines r').
Proof.
  intros So Na Al E. unfold mesh_axis in *. rewrite <- (order_alike srt ax ax' Na Al).
  destruct (first_pass n ax (visiting_order srt ax)) as [x| |] eqn:D; try discriminate. destruct (first_alike n _ ax ax' Al x D) as (x' & -> & Al1). cbn [bind] in *.
  destruct (second_pass n x (visiting_order srt ax)) as [[y ls]| |] eqn:D2; try discriminate. destruct (second_alike n _ x x' y ls Al1 D2) as (y' & ls' & -> & Al2 & Ql). cbn [bind] in *.
  injection E as <-. eexists. split; [reflexivity|]. cbn. destruct (enabled_alike y y' Al2) as (m & Pm & m' & Pm' & Fm).
  destruct (So _ (fun x : Q => x) (ax_lines y ++ concat ls ++ flat_map mesh_policy (ax_policies y))) as [P Ss].
  destruct (So _ (fun x : Q => x) (ax_lines y' ++ concat ls' ++ flat_map mesh_policy (ax_policies y'))) as [P' Ss'].
  apply (same_sorted (ax_lines y ++ concat ls ++ flat_map mesh_policy m) (ax_lines y' ++ concat ls' ++ flat_map mesh_policy m')); [| | |exact Ss|exact Ss'].
  - eexists. split; [reflexivity|]. rewrite (al_lines _ _ Al2). apply Forall2_app; [|apply Forall2_app; [now apply concat_m|now apply mesh_policies_m]]. clear. induction (ax_lines y'); constructor; [reflexivity|assumption].
  - rewrite <- P. apply Permutation_app_head, Permutation_app_head. rewrite (mesh_policies_filter (ax_policies y)). apply Permutation_flat_map. now symmetry.
  - rewrite <- P'. apply Permutation_app_head, Permutation_app_head. rewrite (mesh_policies_filter (ax_policies y')). now apply Permutation_flat_map.
Qed.
End Addresses.

Theorem finish_alike n g srt zs ax ax' r : sorts srt -> natural_sort srt -> 0 <= g_proximity_limit g -> unmeshed ax -> unmeshed ax' -> all_consistent ax -> all_consistent ax' -> same_enabled ax ax' ->
  finish_axis n g srt zs ax = Done r -> exists r', finish_axis n g srt zs ax' = Done r' /\ same_lines (ax_lines r) (ax_lines r').
Proof.
  intros So Na Lim (C & Sg & Li) (C' & Sg' & Li') Co Co' Se E.
  assert (Set_ : forall y : axis, ax_conflicts y = [] -> settled y) by (intros y Y; split; [intros i p _ (c & I & _)|intros i (c & I & _)]; rewrite Y in I; destruct I).
  unfold finish_axis in *. destruct (detect_and_solve_too_close n g srt ax) as [a1| |] eqn:E1; try discriminate. cbn [bind] in E.
  destruct (solve_paired g srt n So Lim ax ax' a1 (Set_ _ C) (Set_ _ C') Co Co' (start_same srt ax ax' So Se) E1) as (a1' & -> & V1 & G & G' & L & L'). cbn [bind].
  set (idx := map fst (dimension srt a1)) in *. set (idx' := map fst (dimension srt a1')) in *.
  assert (Nd : NoDup idx) by now apply dimension_nodup. assert (Nd' : NoDup idx') by now apply dimension_nodup.
  assert (Len : length idx = length idx') by (unfold idx, idx'; rewrite !map_length; assert (X : length (vals srt a1) = length (vals srt a1')) by (clear -V1; induction V1; cbn; congruence); unfold vals in X; now rewrite !map_length in X).
  assert (Al : alike idx idx' a1 a1').
  { split.
    - intros i i' (k & A & B). unfold idx, idx' in A, B. rewrite nth_error_map in A, B. destruct (nth_error (dimension srt a1) k) as [[i0 p]|] eqn:X; [|discriminate]. destruct (nth_error (dimension srt a1') k) as [[i0' p']|] eqn:Y; [|discriminate].
      cbn in A, B. injection A as ->. injection B as ->. exists p, p'.
      split; [apply (dimension_in srt a1 i p So); eapply nth_error_In; eassumption|]. split; [apply (dimension_in srt a1' i' p' So); eapply nth_error_In; eassumption|].
      unfold vals in V1. clear -V1 X Y. revert V1 k X Y. generalize (dimension srt a1) (dimension srt a1'). induction l as [|u l IH]; intros [|v l'] V [|k] X Y; cbn in *; try discriminate; inversion V; subst.
      + injection X as ->. injection Y as ->. assumption.
      + eapply IH; eassumption.
    - rewrite G, G', Sg, Sg'. constructor.
    - congruence.
    - intros i p P. apply (dimension_in srt a1 i p So) in P. exact (in_map fst _ _ P).
    - intros i p P. apply (dimension_in srt a1' i p So) in P. exact (in_map fst _ _ P). }
  unfold detect_intervals in *. destruct (detect_intervals_loop g a1 (map fst (dimension srt a1))) as [a2| |] eqn:E2; try discriminate. cbn [bind] in E.
  assert (T : Forall2 (twin idx idx') idx idx').
  { clear -Len. assert (H : forall k l l', length l = length l' -> (forall j, nth_error l j = nth_error idx (k + j)) -> (forall j, nth_error l' j = nth_error idx' (k + j)) -> Forall2 (twin idx idx') l l').
    { intros k l. revert k. induction l as [|x l IH]; intros k [|y l'] Le A B; try discriminate; constructor.
      - exists k. rewrite <- (Nat.add_0_r k), <- (A 0%nat), <- (B 0%nat). now split.
      - apply (IH (S k)); [now injection Le|intros j; specialize (A (S j)); rewrite Nat.add_succ_r in A; exact A|intros j; specialize (B (S j)); rewrite Nat.add_succ_r in B; exact B]. }
    now apply (H 0%nat). }
  destruct (detect_alike idx idx' Nd Nd' g idx idx' a1 a1' Al T a2 E2) as (a2' & E2' & Al2). fold idx'. rewrite E2'. cbn [bind].
  exact (mesh_alike idx idx' Nd Nd' Len n srt _ _ r So Na (zones_alike idx idx' zs a2 a2' Al2) E).
Qed.
