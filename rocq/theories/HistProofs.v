(** The invariant tying the Caretaker and its objects to the snapshot machine. *)
From Coq Require Import List Arith Bool Lia.
From Verif Require Import HistModel HistSpec HistTreeProofs.
Import ListNotations.

Lemma filter_rev' {X} (f : X -> bool) l : filter f (rev l) = rev (filter f l).
Proof.
  induction l as [|a l IH]; cbn; [reflexivity|].
  rewrite filter_app, IH. cbn. destruct (f a); cbn; [reflexivity | apply app_nil_r].
Qed.

Lemma find_filter {X} (p q : X -> bool) l :
  (forall x, In x l -> p x = true -> q x = true) -> find p (filter q l) = find p l.
Proof.
  induction l as [|a l IH]; cbn; [reflexivity|]. intros H.
  destruct (q a) eqn:Q; cbn.
  - destruct (p a); [reflexivity | apply IH; auto].
  - destruct (p a) eqn:P; [rewrite (H a) in Q; auto; discriminate | apply IH; auto].
Qed.

Lemma find_ext_in {X} (p q : X -> bool) l :
  (forall x, In x l -> p x = q x) -> find p l = find q l.
Proof.
  induction l as [|a l IH]; cbn; [reflexivity|]. intros H. rewrite (H a) by auto.
  destruct (q a); auto.
Qed.

Lemma find_app {X} (p : X -> bool) l1 l2 :
  find p (l1 ++ l2) = match find p l1 with Some x => Some x | None => find p l2 end.
Proof. induction l1 as [|a l IH]; cbn; [reflexivity|]. destruct (p a); auto. Qed.

Global Arguments alive : simpl never.
Global Arguments root_of : simpl never.

Lemma NoDup_snoc {X} (l : list X) a : NoDup l -> ~ In a l -> NoDup (l ++ [a]).
Proof.
  induction 1 as [|b l Hb ND IH]; cbn; intros H; constructor; auto.
  - constructor.
  - rewrite in_app_iff. cbn. intros [?|[->|[]]]; tauto.
Qed.

Section WithStates.
Context {V A : Type}.
Notation world := (world V A).
Notation orig := (orig V).
Notation ghost := (ghost V).

(** Last inserted key on the path of [t]. *)
Definition srch (h : heap) (order : list tp) (t : tp) : option tp :=
  find (fun k => mem k (ancestors_self h t)) (rev order).

Definition pos (h : heap) (x : orig) (t : tp) : tp :=
  match srch h (o_order x) t with Some k => k | None => o_init x end.

Record obj_ok (h : heap) (cur : tp) (g : ghost) (o : oid) (x : orig) : Prop := {
  ok_init : alive h (o_init x) = true;
  ok_born : g_ser g (o_init x) = g_born g o;
  ok_keys : forall k, In k (o_order x) -> alive h k = true;
  ok_in : In (o_init x) (o_order x);
  ok_map : map fst (o_states x) = o_order x;
  ok_first : assoc (o_init x) (o_states x) = g_first g o;
  ok_snap : forall u, alive h u = true ->
    g_snap g (g_ser g u) o = match srch h (o_order x) u with Some k => assoc k (o_states x) | None => None end;
  ok_pos : match o_lazy x with
           | None => o_cur x = pos h x cur
           | Some t => alive h t = true /\ pos h x t = pos h x cur
           end;
  ok_wrote : forall k, In k (o_order x) -> In (o, g_ser g k) (g_wrote g)
}.

Fixpoint no_repeat (l : list tp) : Prop :=
  match l with
  | a :: (b :: _) as r => a <> b /\ no_repeat r
  | _ => True
  end.

Record inv (w : world) (g : ghost) : Prop := {
  i_wf : wf_heap (w_heap w);
  i_root : w_root w = root (w_heap w);
  i_cur : alive (w_heap w) (w_cur w) = true;
  i_pins : forall t, In t (w_pins w) -> alive (w_heap w) t = true;
  i_hist : forall t, In t (w_hist w) -> alive (w_heap w) t = true;
  i_hist_hd : exists l, w_hist w = w_root w :: l;
  i_brow : forall k, w_brow w = Some k -> S k < length (w_hist w);
  i_ann : forall t, In t (map fst (w_ann w)) -> alive (w_heap w) t = true;
  i_ser_lt : forall t, alive (w_heap w) t = true -> g_ser g t < g_n g;
  i_ser_inj : forall t u, alive (w_heap w) t = true -> alive (w_heap w) u = true ->
                g_ser g t = g_ser g u -> t = u;
  i_path : forall t, alive (w_heap w) t = true ->
             g_path g (g_ser g t) = map (g_ser g) (ancestors_self (w_heap w) t);
  i_regs : NoDup (w_regs w);
  i_made : forall o, g_made g o = None -> assoc o (w_objs w) = None /\ g_first g o = None;
  i_reg_first : forall o, In o (w_regs w) -> g_first g o <> None;
  i_snap_none : forall o, g_first g o = None -> forall s, g_snap g s o = None;
  i_fresh : forall o x, g_first g o = None -> assoc o (w_objs w) = Some x ->
              exists c t v, g_made g o = Some (t, v) /\ x = new_orig c t v;
  i_objs : forall o x, In o (w_regs w) -> assoc o (w_objs w) = Some x ->
             obj_ok (w_heap w) (w_cur w) g o x
}.

Ltac fromI I :=
  first [exact (i_wf _ _ I)
        | exact (i_root _ _ I)
        | exact (i_cur _ _ I)
        | exact (i_pins _ _ I)
        | exact (i_hist _ _ I)
        | exact (i_hist_hd _ _ I)
        | exact (i_brow _ _ I)
        | exact (i_ann _ _ I)
        | exact (i_ser_lt _ _ I)
        | exact (i_ser_inj _ _ I)
        | exact (i_path _ _ I)
        | exact (i_regs _ _ I)
        | exact (i_made _ _ I)
        | exact (i_reg_first _ _ I)
        | exact (i_snap_none _ _ I)
        | exact (i_fresh _ _ I)
        | exact (i_objs _ _ I) ].

(** * One object *)
Lemma scan_ok h t l : wf_heap h -> alive h t = true -> (forall k, In k l -> alive h k = true) ->
  scan h t l = Ok (find (fun k => mem k (ancestors_self h t)) l).
Proof.
  intros W Ht. induction l as [|k l IH]; cbn; intros H; [reflexivity|].
  rewrite (H k), Ht by auto. cbn. rewrite common_ancestor_eq by auto.
  destruct (mem k _); auto.
Qed.

Definition settled (x : orig) (c : tp) : orig :=
  mkOrig (o_const x) (o_init x) c None (o_states x) (o_order x).

Lemma actually_go_ok h cur g o x : wf_heap h -> obj_ok h cur g o x ->
  actually_go h x = Ok (settled x (pos h x cur)).
Proof.
  intros W K. unfold actually_go. pose proof (ok_pos _ _ _ _ _ K) as P.
  destruct (o_lazy x) as [t|] eqn:L.
  - destruct P as [Ht P].
    destruct (Nat.eqb_spec t null) as [->|_]; [rewrite wf_not_null in Ht by assumption; discriminate|].
    rewrite scan_ok; auto.
    + cbn. rewrite <- P. unfold pos, srch. destruct (find _ _); reflexivity.
    + intros k Hk. apply (ok_keys _ _ _ _ _ K). now apply in_rev.
  - rewrite <- P. unfold settled. destruct x; cbn in *. now subst.
Qed.

Lemma settled_ok h cur g o x : obj_ok h cur g o x -> obj_ok h cur g o (settled x (pos h x cur)).
Proof. intros []. constructor; cbn; auto. Qed.

Lemma pos_In h x t : In (o_init x) (o_order x) -> In (pos h x t) (o_order x).
Proof.
  unfold pos, srch. destruct (find _ _) eqn:F; [|auto]. intros _. apply find_some in F as [F _].
  now apply in_rev.
Qed.

Lemma report_value h cur g o x : wf_heap h -> alive h cur = true -> obj_ok h cur g o x ->
  exists v, assoc (pos h x cur) (o_states x) = Some v /\ snapshot g cur o = Some v.
Proof.
  intros W Hc K. unfold snapshot. rewrite (ok_snap _ _ _ _ _ K cur Hc).
  assert (D : assoc (pos h x cur) (o_states x) <> None).
  { apply assoc_Some_iff. rewrite (ok_map _ _ _ _ _ K). apply pos_In, K. }
  destruct (assoc (pos h x cur) (o_states x)) as [v|] eqn:E; [|congruence]. exists v. split; [auto|].
  unfold pos in E. destruct (srch h (o_order x) cur).
  - now rewrite E.
  - now rewrite <- (ok_first _ _ _ _ _ K).
Qed.

Lemma get_state_ok h cur g o x : wf_heap h -> alive h cur = true -> obj_ok h cur g o x ->
  exists v, get_current_state h x = Ok (settled x (pos h x cur), v) /\ snapshot g cur o = Some v.
Proof.
  intros W Hc K. destruct (report_value h cur g o x W Hc K) as (v & E & S).
  exists v. split; [|assumption]. unfold get_current_state.
  rewrite (actually_go_ok h cur g o x W K). cbn. now rewrite E.
Qed.

(** Moving inside an extended or reduced tree. *)
Lemma srch_ext h h' order t t' :
  (forall k, In k order -> mem k (ancestors_self h t) = mem k (ancestors_self h' t')) ->
  srch h order t = srch h' order t'.
Proof. intros H. apply find_ext_in. intros k Hk. apply H. now apply in_rev. Qed.

(** * Association lists of objects *)
Lemma assoc_update o (x : orig) objs o' :
  assoc o' (update_obj o x objs) =
  if o' =? o then match assoc o objs with Some _ => Some x | None => None end else assoc o' objs.
Proof.
  unfold update_obj. induction objs as [|[k y] l IH]; cbn.
  - now destruct (o' =? o).
  - destruct (Nat.eqb_spec k o) as [->|Hk]; cbn.
    + rewrite Nat.eqb_refl. destruct (Nat.eqb_spec o' o); auto.
    + destruct (Nat.eqb_spec o' k) as [->|Hk'].
      * destruct (Nat.eqb_spec k o); congruence.
      * rewrite IH. destruct (Nat.eqb_spec o' o); [|reflexivity].
        destruct (Nat.eqb_spec o k); congruence.
Qed.

Lemma assoc_map_go (f : nat -> orig -> orig) objs o :
  assoc o (map (fun e => (fst e, f (fst e) (snd e))) objs) =
  match assoc o objs with Some x => Some (f o x) | None => None end.
Proof.
  induction objs as [|[k y] l IH]; cbn; [reflexivity|].
  destruct (Nat.eqb_spec o k) as [->|]; auto.
Qed.

Lemma erase_all_ok h ts regs : NoDup regs -> forall objs : list (oid * orig),
  (forall o x, In o regs -> assoc o objs = Some x -> exists x', erase h ts x = Ok x') ->
  exists objs', erase_all h ts regs objs = Ok objs' /\
    forall o, match assoc o objs with
              | None => assoc o objs' = None
              | Some x => if mem o regs then exists x', erase h ts x = Ok x' /\ assoc o objs' = Some x'
                          else assoc o objs' = Some x
              end.
Proof.
  induction 1 as [|r regs Hr ND IH]; intros objs H.
  - exists objs. split; [reflexivity|]. intros o. cbn. destruct (assoc o objs); auto.
  - cbn. destruct (assoc r objs) as [x|] eqn:E.
    + destruct (H r x) as [x' Ex]; [now left | assumption |]. rewrite Ex. cbn.
      destruct (IH (update_obj r x' objs)) as (objs' & E' & Hs).
      { intros o y Ho. rewrite assoc_update. destruct (Nat.eqb_spec o r) as [->|]; [contradiction|].
        apply H. now right. }
      exists objs'. split; [assumption|]. intros o. specialize (Hs o). rewrite assoc_update in Hs.
      destruct (Nat.eqb_spec o r) as [e|Ho].
      * subst o. rewrite E in *. cbn.
        rewrite (proj2 (mem_nIn r regs) Hr) in Hs. eauto.
      * exact Hs.
    + destruct (IH objs) as (objs' & E' & Hs); [intros; eapply H; eauto; now right|].
      exists objs'. split; [assumption|]. intros o. specialize (Hs o).
      destruct (assoc o objs) eqn:Eo; [|assumption].
      cbn. destruct (Nat.eqb_spec o r) as [->|]; [congruence | assumption].
Qed.

(** * Collection *)
Section Collect.
Variables (w : world) (g : ghost).
Hypothesis I : inv w g.
Let h := w_heap w.
Let K := gc_keep w.
Let keep t := mem t K.

Lemma keep_In t : keep t = true <-> exists u, In u (w_pins w ++ w_hist w ++ [w_cur w]) /\ In t (ancestors_self h u).
Proof. unfold keep, K, gc_keep. rewrite mem_In, in_flat_map. reflexivity. Qed.

Lemma roots_alive u : In u (w_pins w ++ w_hist w ++ [w_cur w]) -> alive h u = true.
Proof.
  rewrite !in_app_iff. intros [H|[H|[<-|[]]]].
  - now apply (i_pins _ _ I).
  - now apply (i_hist _ _ I).
  - apply (i_cur _ _ I).
Qed.

Lemma keep_roots u : In u (w_pins w ++ w_hist w ++ [w_cur w]) -> keep u = true.
Proof.
  intros H. apply keep_In. exists u. split; [assumption|]. apply anc_self_In. now apply roots_alive.
Qed.

Lemma keep_closed t u : keep t = true -> In u (ancestors_self h t) -> keep u = true.
Proof.
  rewrite !keep_In. intros (v & Hv & Ht) Hu. exists v. split; [assumption|].
  eapply anc_trans; eauto. apply (i_wf _ _ I).
Qed.

Lemma keep_alive t : keep t = true -> alive h t = true.
Proof. rewrite keep_In. intros (u & _ & H). eapply anc_incl; eauto. Qed.

Lemma keep_cur : keep (w_cur w) = true.
Proof. apply keep_roots. rewrite !in_app_iff. cbn. auto. Qed.

Lemma keep_root : keep (root h) = true.
Proof.
  apply keep_closed with (t := w_cur w); [apply keep_cur|].
  apply anc_root_In; [apply I | apply (i_cur _ _ I)].
Qed.

Lemma rm_spec t : alive h t = true -> mem t (gc_remove w) = negb (keep t).
Proof.
  intros Ht. unfold gc_remove. fold K. destruct (keep t) eqn:E; cbn.
  - apply mem_nIn. rewrite filter_In. unfold keep in E. rewrite E. intros [_ H]. discriminate.
  - apply mem_In. rewrite filter_In. unfold keep in E. rewrite E. split; [|reflexivity].
    unfold cluster. rewrite filter_In. split; [now apply alive_In|].
    unfold ancestors. apply mem_In. rewrite (i_root _ _ I).
    pose proof (anc_root_In h t (i_wf _ _ I) Ht) as R.
    destruct (anc_alive_cons h t Ht) as [l El]. fold h. rewrite El in *. cbn.
    destruct R as [R|R]; [|assumption]. subst t. pose proof keep_root. unfold keep in *. congruence.
Qed.

Definition new_heap : heap := filter (fun e => keep (fst e)) h.

Lemma erase_heap : erase_from_descendants (w_heap w) (w_root w) (gc_remove w) = new_heap.
Proof.
  unfold erase_from_descendants, new_heap. apply filter_ext_in. intros [t p] Hin. cbn [fst].
  apply heap_In_alive in Hin. fold h in Hin. unfold ancestors. fold h.
  destruct (keep t) eqn:E.
  - apply negb_true_iff. apply andb_false_iff. right.
    apply not_true_iff_false. rewrite existsb_exists. intros (x & Hx & Hm).
    apply andb_true_iff in Hm as [Hm _]. rewrite rm_spec in Hm by (eapply anc_incl; eauto).
    rewrite (keep_closed t x E Hx) in Hm. discriminate.
  - apply negb_false_iff. apply andb_true_iff.
    assert (R : mem (w_root w) (tl (ancestors_self h t)) = true).
    { apply mem_In. rewrite (i_root _ _ I). fold h.
      pose proof (anc_root_In h t (i_wf _ _ I) Hin) as R.
      destruct (anc_alive_cons h t Hin) as [l El]. rewrite El in *. cbn.
      destruct R as [R|R]; [|assumption]. subst t. pose proof keep_root. congruence. }
    split; [assumption|]. apply existsb_exists. exists t. split; [now apply anc_self_In|].
    rewrite R, rm_spec, E by assumption. reflexivity.
Qed.

Lemma new_anc t : keep t = true -> ancestors_self new_heap t = ancestors_self h t.
Proof. intros H. apply anc_filter; [apply I | apply keep_closed | assumption]. Qed.

Lemma new_alive t : alive new_heap t = keep t.
Proof.
  unfold new_heap. rewrite alive_filter. destruct (keep t) eqn:E; [|reflexivity].
  now rewrite keep_alive.
Qed.

Lemma new_wf : wf_heap new_heap /\ root new_heap = root h.
Proof. apply wf_filter; [apply I | apply keep_root | apply keep_closed]. Qed.

Definition collected (x : orig) : orig :=
  mkOrig (o_const x) (o_init x) (pos h x (w_cur w)) None
    (filter (fun e => keep (fst e)) (o_states x)) (filter keep (o_order x)).

Lemma erase_obj o x : obj_ok h (w_cur w) g o x -> exists x', erase h (gc_remove w) x = Ok x'.
Proof.
  intros X. unfold erase. rewrite (actually_go_ok h (w_cur w) g o x (i_wf _ _ I) X). cbn. eauto.
Qed.

Lemma keep_pos o x : obj_ok h (w_cur w) g o x -> keep (o_init x) = true -> keep (pos h x (w_cur w)) = true.
Proof.
  intros X Hi. unfold pos, srch.
  match goal with |- context [find ?f ?l] => destruct (find f l) eqn:F end; [|assumption].
  apply find_some in F as [_ F]. apply mem_In in F. eapply keep_closed; [apply keep_cur | exact F].
Qed.

Lemma erase_obj_eq o x : obj_ok h (w_cur w) g o x -> keep (o_init x) = true ->
  erase h (gc_remove w) x = Ok (collected x).
Proof.
  intros X Hi. unfold erase. rewrite (actually_go_ok h (w_cur w) g o x (i_wf _ _ I) X).
  assert (E : forall k, In k (o_order x) ->
    negb (if (k =? o_init x) || (k =? pos h x (w_cur w)) then false else mem k (gc_remove w)) = keep k).
  { intros k Hk. apply (ok_keys _ _ _ _ _ X) in Hk.
    destruct (Nat.eqb_spec k (o_init x)) as [->|_]; cbn; [auto|].
    destruct (Nat.eqb_spec k (pos h x (w_cur w))) as [->|_]; cbn; [symmetry; eapply keep_pos; eauto|].
    rewrite rm_spec by assumption. now rewrite negb_involutive. }
  cbn. unfold collected. f_equal. f_equal.
  - apply filter_ext_in. intros [k v] Hin. apply E. rewrite <- (ok_map _ _ _ _ _ X).
    now apply (in_map fst) in Hin.
  - apply filter_ext_in. exact E.
Qed.

Lemma collected_srch x u : keep u = true -> srch new_heap (o_order (collected x)) u = srch h (o_order x) u.
Proof.
  intros Hu. unfold srch. cbn. rewrite <- filter_rev', new_anc by assumption.
  apply find_filter. intros k _ Hk. apply mem_In in Hk. eapply keep_closed; eauto.
Qed.

Lemma collected_pos x u : keep u = true -> pos new_heap (collected x) u = pos h x u.
Proof. intros Hu. unfold pos. rewrite collected_srch by assumption. reflexivity. Qed.

Lemma collected_ok o x : obj_ok h (w_cur w) g o x -> keep (o_init x) = true ->
  obj_ok new_heap (w_cur w) g o (collected x).
Proof.
  intros X Hi. constructor.
  - now rewrite new_alive.
  - apply X.
  - cbn. intros k Hk. apply filter_In in Hk as [_ Hk]. now rewrite new_alive.
  - cbn. apply filter_In. split; [apply X | assumption].
  - cbn. rewrite map_fst_filter. now rewrite (ok_map _ _ _ _ _ X).
  - cbn. rewrite assoc_filter, Hi. apply X.
  - intros u Hu. rewrite new_alive in Hu. rewrite collected_srch by assumption.
    rewrite (ok_snap _ _ _ _ _ X) by now apply keep_alive.
    destruct (srch h (o_order x) u) as [k|] eqn:E; [|reflexivity].
    cbn. rewrite assoc_filter. apply find_some in E as [_ E]. apply mem_In in E.
    now rewrite (keep_closed u k Hu E).
  - cbn [o_lazy collected]. cbn. rewrite collected_pos; [reflexivity | apply keep_cur].
  - cbn. intros k Hk. apply filter_In in Hk as [Hk _]. now apply X.
Qed.

Lemma gc_ok dying : exists w', garbage_collector dying w = Ok w' /\
  w_heap w' = new_heap /\ w_auto w' = w_auto w /\ w_root w' = w_root w /\ w_cur w' = w_cur w /\
  w_pins w' = w_pins w /\ w_hist w' = w_hist w /\ w_brow w' = w_brow w /\
  w_ann w' = filter (fun e => keep (fst e)) (w_ann w) /\
  incl (w_regs w') (w_regs w) /\
  (forall o, assoc o (w_objs w') <> None -> In o (w_regs w) -> In o (w_regs w')) /\
  (forall o, In o (w_regs w') -> assoc o (w_objs w') <> None) /\
  (forall o, assoc o (w_objs w') <> None -> mem o dying = false /\ assoc o (w_objs w) <> None) /\
  (forall o, mem o dying = false -> assoc o (w_objs w) <> None -> assoc o (w_objs w') <> None) /\
  (births_alive w' g -> inv w' g).
Proof.
  unfold garbage_collector.
  replace (forallb (alive (w_heap w)) (w_pins w ++ w_hist w ++ [w_cur w])) with true
    by (symmetry; apply forallb_forall; apply roots_alive).
  destruct (erase_all_ok h (gc_remove w) (w_regs w) (i_regs _ _ I) (w_objs w)) as (objs & Eo & Ho).
  { intros o x Hr Hx. eapply erase_obj, (i_objs _ _ I); eauto. }
  fold h. rewrite Eo. cbn [bind]. eexists. split; [reflexivity|]. cbn.
  assert (EH : erase_from_descendants h (w_root w) (gc_remove w) = new_heap) by exact erase_heap.
  rewrite EH.
  set (objs' := filter (fun e => negb (mem (fst e) dying)) objs).
  assert (Eann : filter (fun e : nat * A => negb (mem (fst e) (gc_remove w))) (w_ann w)
               = filter (fun e => keep (fst e)) (w_ann w)).
  { apply filter_ext_in. intros [t a] Hin. cbn. rewrite rm_spec, negb_involutive; [reflexivity|].
    apply (i_ann _ _ I). now apply (in_map fst) in Hin. }
  assert (As : forall o, assoc o objs' = if mem o dying then None else assoc o objs).
  { intros o. unfold objs'. rewrite (assoc_filter (fun k => negb (mem k dying))). now destruct (mem o dying). }
  assert (As2 : forall o, assoc o objs <> None <-> assoc o (w_objs w) <> None).
  { intros o. specialize (Ho o). destruct (assoc o (w_objs w)).
    - destruct (mem o (w_regs w)); [destruct Ho as (x' & _ & ->)|rewrite Ho]; split; discriminate.
    - rewrite Ho. tauto. }
  rewrite Eann.
  set (regs' := filter _ (w_regs w)).
  assert (Rg : forall o, In o regs' <-> In o (w_regs w) /\ assoc o objs' <> None).
  { intros o. unfold regs'. rewrite filter_In. destruct (assoc o objs'); split; intros [? ?]; split; auto; try discriminate; congruence. }
  split; [reflexivity|]. do 7 (split; [reflexivity|]).
  split; [intros o Hr; now apply Rg in Hr|].
  split; [intros o H1 H2; now apply Rg|].
  split; [intros o Hr; now apply Rg in Hr|].
  split; [intros o Hr; rewrite As in Hr; destruct (mem o dying); [congruence | split; [reflexivity | now apply As2]]|].
  split; [intros o Hd Hr; rewrite As, Hd; now apply As2|].
  intros B.
  assert (Obj : forall o x', In o regs' -> assoc o objs' = Some x' ->
            exists x, In o (w_regs w) /\ assoc o (w_objs w) = Some x /\ keep (o_init x) = true /\ x' = collected x).
  { intros o x' Hr Hx'. assert (Hr' := Hr). apply Rg in Hr as [Hr Hn].
    rewrite As in Hx'. destruct (mem o dying); [discriminate|]. specialize (Ho o).
    destruct (assoc o (w_objs w)) as [x|] eqn:Ex; [|congruence]. exists x.
    pose proof (i_objs _ _ I o x Hr Ex) as X. fold h in X.
    rewrite (proj2 (mem_In o (w_regs w)) Hr) in Ho. destruct Ho as (x'' & Er & Ea).
    assert (Ki : keep (o_init x) = true).
    { destruct (B o) as (t & Ht & Hb); [split; cbn; assumption|]. cbn in Ht.
      rewrite new_alive in Ht.
      rewrite (i_ser_inj _ _ I (o_init x) t); [assumption | apply X | now apply keep_alive |].
      rewrite (ok_born _ _ _ _ _ X). congruence. }
    rewrite (erase_obj_eq o x X Ki) in Er. injection Er as <-. rewrite Hx' in Ea. injection Ea as ->.
    auto. }
  pose proof new_wf as [Wf Rt].
  constructor; cbn.
  - exact Wf.
  - rewrite Rt. apply I.
  - rewrite new_alive. apply keep_cur.
  - intros t Ht. rewrite new_alive. apply keep_roots. apply in_or_app. now left.
  - intros t Ht. rewrite new_alive. apply keep_roots. rewrite !in_app_iff. auto.
  - apply I.
  - apply I.
  - intros t Ht. rewrite map_fst_filter, filter_In in Ht. rewrite new_alive. tauto.
  - intros t Ht. rewrite new_alive in Ht. apply I. now apply keep_alive.
  - intros t u Ht Hu. rewrite new_alive in *. apply I; now apply keep_alive.
  - intros t Ht. rewrite new_alive in Ht. rewrite new_anc by assumption. apply I. now apply keep_alive.
  - apply NoDup_filter. apply I.
  - intros o Hm. destruct (i_made _ _ I o Hm) as [H1 H2]. split; [|assumption].
    rewrite As. destruct (mem o dying); [reflexivity|].
    destruct (assoc o objs) eqn:E; [|reflexivity]. exfalso.
    assert (D : assoc o objs <> None) by congruence. apply As2 in D. congruence.
  - intros o Hr. apply (i_reg_first _ _ I). now apply Rg in Hr.
  - apply I.
  - intros o x Hf Hx. rewrite As in Hx. destruct (mem o dying); [discriminate|].
    specialize (Ho o). destruct (assoc o (w_objs w)) as [y|] eqn:Ey; [|congruence].
    destruct (mem_spec o (w_regs w)) as [Hr|Hr].
    + now apply (i_reg_first _ _ I) in Hr.
    + rewrite Ho in Hx. injection Hx as ->. apply (i_fresh _ _ I); auto.
  - intros o x' Hr Hx'. destruct (Obj o x' Hr Hx') as (x & Hr0 & Ex & Ki & ->).
    apply collected_ok; [|assumption]. now apply (i_objs _ _ I).
Qed.

End Collect.

(** * Navigation *)
Definition nav (w : world) (t : tp) (hist : list tp) (brow : option nat) : world :=
  mkWorld (w_auto w) (w_heap w) (w_root w) t (w_regs w) (w_pins w) hist brow (w_ann w)
    (map (fun e => (fst e, if mem (fst e) (w_regs w) then go t (snd e) else snd e)) (w_objs w)).

Lemma go_eq w g t : inv w g -> alive (w_heap w) t = true ->
  go_without_remembering t w = Ok (nav w t (w_hist w) (w_brow w), true).
Proof.
  intros I Ht. unfold go_without_remembering.
  destruct (Nat.eqb_spec t null) as [->|_].
  { rewrite wf_not_null in Ht; [discriminate | apply I]. }
  rewrite Ht, root_of_alive, (i_root _ _ I), Nat.eqb_refl by (auto; apply I).
  unfold nav, set_objs, set_cur. cbn. rewrite (i_root _ _ I). do 3 f_equal.
  apply map_ext. intros [o x]. cbn. now destruct (mem o (w_regs w)).
Qed.

Lemma go_inv w g t hist brow : inv w g -> alive (w_heap w) t = true ->
  (forall u, In u hist -> alive (w_heap w) u = true) -> (exists l, hist = w_root w :: l) ->
  (forall k, brow = Some k -> S k < length hist) ->
  inv (nav w t hist brow) g.
Proof.
  intros I Ht H1 H2 H3.
  assert (As : forall o, assoc o (w_objs (nav w t hist brow)) =
    match assoc o (w_objs w) with Some x => Some (if mem o (w_regs w) then go t x else x) | None => None end).
  { intros o. cbn. apply (assoc_map_go (fun o x => if mem o (w_regs w) then go t x else x)). }
  constructor; try fromI I; auto.
  - intros o Hm. rewrite As. destruct (i_made _ _ I o Hm) as [-> ?]. auto.
  - intros o x Hf. rewrite As. destruct (assoc o (w_objs w)) eqn:E; [|discriminate].
    destruct (mem_spec o (w_regs w)) as [Hr|Hr]; [now apply (i_reg_first _ _ I) in Hr|].
    intros [= ->]. apply (i_fresh _ _ I); auto.
  - intros o x Hr. rewrite As. destruct (assoc o (w_objs w)) as [y|] eqn:E; [|discriminate].
    cbn in Hr. rewrite (proj2 (mem_In o (w_regs w)) Hr). intros [= <-].
    destruct (i_objs _ _ I o y Hr E). constructor; cbn; auto.
Qed.

Lemma hist_inv w g hist brow : inv w g ->
  (forall u, In u hist -> alive (w_heap w) u = true) -> (exists l, hist = w_root w :: l) ->
  (forall k, brow = Some k -> S k < length hist) ->
  inv (set_hist w hist brow) g.
Proof. intros I H1 H2 H3. constructor; try fromI I; auto. Qed.

Lemma stop_inv w g dying : inv w g -> exists w',
  stop_browsing_user_history dying w = Ok w' /\
  w_cur w' = w_cur w /\ w_brow w' = None /\
  w_hist w' = match w_brow w with Some k => firstn (S k) (w_hist w) | None => w_hist w end /\
  (forall t, alive (w_heap w') t = true -> alive (w_heap w) t = true) /\
  (forall o, tracked w' o -> tracked w o) /\
  (births_alive w' g -> inv w' g).
Proof.
  intros I. unfold stop_browsing_user_history. destruct (w_brow w) as [k|] eqn:B.
  - assert (I' : inv (set_hist w (firstn (S k) (w_hist w)) None) g).
    { apply hist_inv; auto.
      - intros u Hu. apply (i_hist _ _ I). rewrite <- (firstn_skipn (S k)). apply in_or_app. now left.
      - destruct (i_hist_hd _ _ I) as [l ->]. cbn. eauto.
      - discriminate. }
    cbn [w_auto set_hist]. destruct (w_auto w) eqn:Au.
    + destruct (gc_ok _ _ I' dying) as
        (w' & E & Eh & Ea & Er & Ec & Ep & Ehi & Eb & Ean & Hin & H1 & H2 & H3 & H4 & Hb).
      exists w'. rewrite E, Ec, Ehi, Eb. cbn. repeat (split; [reflexivity|]). split; [|split].
      * intros t Ht. rewrite Eh, new_alive in Ht. apply keep_alive in Ht. exact Ht.
      * intros o [Hr Ho]. split; [now apply Hin in Hr | now apply H3 in Ho].
      * exact Hb.
    + eexists. split; [reflexivity|]. cbn. auto 10.
  - exists w. auto 10.
Qed.

Lemma next_inv w g a : inv w g -> a <> null -> alive (w_heap w) a = false ->
  let w' := set_cur (set_heap w (add_child (w_heap w) (w_cur w) a)) a in
  let c := g_ser g (w_cur w) in
  inv w' (mkGhost (S (g_n g)) (upd (g_ser g) a (g_n g)) (upd (g_path g) (g_n g) (g_n g :: g_path g c))
            (upd (g_snap g) (g_n g) (g_snap g c)) (g_made g) (g_first g) (g_born g) (g_wrote g)).
Proof.
  intros I Ha Hd w' c. pose proof (i_wf _ _ I) as W.
  assert (Al : forall t, alive (w_heap w') t = true <-> t = a \/ alive (w_heap w) t = true).
  { intros t. cbn. unfold add_child. rewrite alive_cons, orb_true_iff, Nat.eqb_eq. tauto. }
  assert (Ne : forall t, alive (w_heap w) t = true -> t <> a) by (intros; congruence).
  assert (Ser : forall t, alive (w_heap w) t = true -> upd (g_ser g) a (g_n g) t = g_ser g t).
  { intros t Ht. unfold upd. apply Ne, Nat.eqb_neq in Ht. now rewrite Ht. }
  assert (Sera : upd (g_ser g) a (g_n g) a = g_n g) by (unfold upd; now rewrite Nat.eqb_refl).
  assert (Lt : forall X (f : nat -> X) v t, alive (w_heap w) t = true -> upd f (g_n g) v (g_ser g t) = f (g_ser g t)).
  { intros X f v t Ht. unfold upd. apply (i_ser_lt _ _ I) in Ht.
    rewrite (proj2 (Nat.eqb_neq _ _)); [reflexivity | lia]. }
  assert (Ltn : forall X (f : nat -> X) v, upd f (g_n g) v (g_n g) = v) by (intros; unfold upd; now rewrite Nat.eqb_refl).
  assert (An : forall t, alive (w_heap w) t = true -> ancestors_self (w_heap w') t = ancestors_self (w_heap w) t).
  { intros t Ht. cbn [w_heap w' set_cur set_heap]. unfold add_child. now rewrite anc_cons_ne by auto. }
  assert (Ana : ancestors_self (w_heap w') a = a :: ancestors_self (w_heap w) (w_cur w)).
  { cbn [w_heap w' set_cur set_heap]. unfold add_child. now rewrite anc_cons_eq. }
  constructor; cbn [g_n g_ser g_path g_snap g_made g_first g_born g_wrote].
  - apply wf_cons; auto. apply (i_cur _ _ I).
  - cbn [w_root w_heap w' set_cur set_heap]. unfold add_child. rewrite root_cons by assumption. apply I.
  - apply Al. now left.
  - intros t Ht. apply Al. right. now apply (i_pins _ _ I).
  - intros t Ht. apply Al. right. now apply (i_hist _ _ I).
  - apply I.
  - apply I.
  - intros t Ht. apply Al. right. now apply (i_ann _ _ I).
  - intros t Ht. apply Al in Ht as [->|Ht]; [rewrite Sera; lia|].
    rewrite Ser by assumption. apply (i_ser_lt _ _ I) in Ht. lia.
  - intros t u Ht Hu. apply Al in Ht as [->|Ht]; apply Al in Hu as [->|Hu]; rewrite ?Sera, ?Ser by assumption; auto.
    + apply (i_ser_lt _ _ I) in Hu. lia.
    + apply (i_ser_lt _ _ I) in Ht. lia.
    + now apply (i_ser_inj _ _ I).
  - assert (M : forall t, alive (w_heap w) t = true ->
        map (upd (g_ser g) a (g_n g)) (ancestors_self (w_heap w) t) = g_path g (g_ser g t)).
    { intros t Ht. rewrite (i_path _ _ I) by assumption. apply map_ext_in. intros u Hu. apply Ser. eapply anc_incl; eauto. }
    intros t Ht. apply Al in Ht as [->|Ht].
    + rewrite Sera, Ltn, Ana. cbn [map]. rewrite Sera, M; [reflexivity | apply (i_cur _ _ I)].
    + rewrite Ser, Lt, An, M by assumption. reflexivity.
  - apply I.
  - apply I.
  - apply I.
  - intros o Ho s. unfold upd. destruct (s =? g_n g); now apply (i_snap_none _ _ I).
  - apply I.
  - intros o x Hr Hx. cbn [w_regs w_objs w' set_cur set_heap] in Hr, Hx.
    pose proof (i_objs _ _ I o x Hr Hx) as X. destruct X as [Xi Xb Xk Xin Xm Xf Xs Xp Xw].
    assert (S1 : forall u, alive (w_heap w) u = true -> srch (w_heap w') (o_order x) u = srch (w_heap w) (o_order x) u).
    { intros u Hu. apply srch_ext. intros k Hk. now rewrite An. }
    assert (S2 : srch (w_heap w') (o_order x) a = srch (w_heap w) (o_order x) (w_cur w)).
    { apply srch_ext. intros k Hk. rewrite Ana. cbn [mem existsb].
      rewrite (proj2 (Nat.eqb_neq _ _)); [reflexivity | auto]. }
    constructor; cbn [g_n g_ser g_path g_snap g_made g_first g_born g_wrote].
    + apply Al. auto.
    + now rewrite Ser.
    + intros k Hk. apply Al. auto.
    + assumption.
    + assumption.
    + assumption.
    + intros u Hu. apply Al in Hu as [->|Hu].
      * rewrite Sera, Ltn, S2. apply Xs. apply (i_cur _ _ I).
      * rewrite Ser, Lt, S1 by assumption. now apply Xs.
    + change (w_cur w') with a. unfold pos in *. rewrite S2. destruct (o_lazy x) as [t|]; [|assumption].
      destruct Xp as [Ht Xp]. split; [apply Al; auto | now rewrite S1].
    + intros k Hk. rewrite Ser by auto. auto.
Qed.

(** * Writes and registration *)
Lemma mem_path w g t u : inv w g -> alive (w_heap w) t = true -> alive (w_heap w) u = true ->
  mem (g_ser g t) (g_path g (g_ser g u)) = mem t (ancestors_self (w_heap w) u).
Proof.
  intros I Ht Hu. rewrite (i_path _ _ I) by assumption. apply eq_iff_eq_true. rewrite !mem_In, in_map_iff.
  split.
  - intros (v & E & Hv). rewrite <- (i_ser_inj _ _ I v t); auto. eapply anc_incl; eauto.
  - eauto.
Qed.

Definition wghost (g : ghost) (o : oid) (t : tp) (v : V) first born : ghost :=
  mkGhost (g_n g) (g_ser g) (g_path g) (snap_write g (g_ser g t) o v) (g_made g) first born
          ((o, g_ser g t) :: g_wrote g).

Lemma other_ok h cur g o t v first born o' x : o' <> o -> obj_ok h cur g o' x ->
  first o' = g_first g o' -> born o' = g_born g o' ->
  obj_ok h cur (wghost g o t v first born) o' x.
Proof.
  intros Ho [] Hf Hb. constructor; cbn; auto; try congruence.
  intros u Hu. unfold snap_write. apply Nat.eqb_neq in Ho. rewrite Ho. cbn. auto.
Qed.

Lemma write_ok w g o t v x : inv w g -> In o (w_regs w) -> assoc o (w_objs w) = Some x ->
  In t (ancestors_self (w_heap w) (w_cur w)) -> ~ In (o, g_ser g t) (g_wrote g) ->
  obj_ok (w_heap w) (w_cur w) (wghost g o t v (g_first g) (g_born g)) o (set_state t v x).
Proof.
  intros I Hr Hx Ht Hw. pose proof (anc_incl _ _ _ Ht) as Hta.
  destruct (i_objs _ _ I o x Hr Hx) as [Xi Xb Xk Xin Xm Xf Xs Xp Xw].
  assert (Nt : ~ In t (o_order x)) by (intros H; apply Hw; auto).
  unfold set_state. rewrite (proj2 (mem_nIn _ _) Nt). cbn [negb].
  assert (Na : assoc t (o_states x) = None) by (apply assoc_None; now rewrite Xm).
  rewrite Na. constructor; cbn; auto.
  - intros k Hk. apply in_app_or in Hk as [Hk|[<-|[]]]; auto.
  - apply in_or_app. now left.
  - rewrite map_app, Xm. reflexivity.
  - rewrite assoc_app, Xf. destruct (g_first g o) eqn:F; [reflexivity|].
    now apply (i_reg_first _ _ I) in Hr.
  - intros u Hu. unfold snap_write. rewrite Nat.eqb_refl, (mem_path w) by assumption. cbn [andb].
    unfold srch. rewrite rev_app_distr. cbn [rev app find].
    destruct (mem t (ancestors_self (w_heap w) u)).
    + rewrite assoc_app, Na. cbn. now rewrite Nat.eqb_refl.
    + rewrite Xs by assumption. unfold srch. destruct (find _ _) eqn:F; [|reflexivity].
      rewrite assoc_app. destruct (assoc n (o_states x)) eqn:E; [reflexivity|].
      cbn. destruct (Nat.eqb_spec n t) as [->|]; [|reflexivity].
      apply find_some in F as [F _]. apply in_rev in F. contradiction.
  - unfold pos, srch. cbn. rewrite rev_app_distr. cbn. now rewrite (proj2 (mem_In _ _) Ht).
  - intros k Hk. apply in_app_or in Hk as [Hk|[<-|[]]]; auto.
Qed.

Lemma new_ok w g o c t v born : inv w g -> g_first g o = None ->
  In t (ancestors_self (w_heap w) (w_cur w)) -> born o = g_ser g t ->
  obj_ok (w_heap w) (w_cur w) (wghost g o t v (upd (g_first g) o (Some v)) born) o (new_orig c t v).
Proof.
  intros I Hf Ht Hb. pose proof (anc_incl _ _ _ Ht) as Hta.
  constructor; cbn; auto.
  - intros k [<-|[]]. assumption.
  - unfold upd. now rewrite !Nat.eqb_refl.
  - intros u Hu. unfold snap_write. rewrite Nat.eqb_refl, (mem_path w) by assumption. cbn [andb].
    unfold srch. cbn. destruct (mem t _); [now rewrite Nat.eqb_refl | now apply (i_snap_none _ _ I)].
  - unfold pos, srch. cbn. now rewrite (proj2 (mem_In _ _) Ht).
  - intros k [<-|[]]. now left.
Qed.

Lemma set_hist_same (w : world) : set_hist w (w_hist w) (w_brow w) = w.
Proof. now destruct w. Qed.

Lemma remember_inv w g : inv w g -> inv (remember_current_timepoint w) g.
Proof.
  intros I. unfold remember_current_timepoint. destruct (_ =? _); [assumption|].
  apply hist_inv; auto.
  - intros u Hu. apply in_app_or in Hu as [Hu|[<-|[]]]; [now apply (i_hist _ _ I) | apply I].
  - destruct (i_hist_hd _ _ I) as [l ->]. cbn. eauto.
  - intros k Hk. rewrite app_length. apply (i_brow _ _ I) in Hk. lia.
Qed.

Lemma browse_eq w g k : inv w g -> k < length (w_hist w) ->
  browse_to k w = Ok (nav w (nth k (w_hist w) null) (w_hist w)
                          (if k =? length (w_hist w) - 1 then None else Some k)).
Proof.
  intros I Hk. unfold browse_to.
  pose proof (nth_In (w_hist w) null Hk) as Hin. apply (i_hist _ _ I) in Hin.
  set (t := nth k (w_hist w) null) in *.
  unfold go_without_remembering. cbn.
  destruct (Nat.eqb_spec t null) as [E|_].
  { rewrite E, wf_not_null in Hin; [discriminate | apply I]. }
  rewrite Hin, root_of_alive, (i_root _ _ I), Nat.eqb_refl by (auto; apply I). cbn.
  unfold nav, set_objs, set_cur, set_hist. cbn. rewrite (i_root _ _ I). f_equal. f_equal.
  apply map_ext. intros [o x]. cbn. fold (mem o (w_regs w)). now destruct (mem o (w_regs w)).
Qed.

Lemma browse_inv w g k : inv w g -> k < length (w_hist w) ->
  exists w', browse_to k w = Ok w' /\ inv w' g.
Proof.
  intros I Hk. rewrite (browse_eq w g) by assumption. eexists. split; [reflexivity|].
  apply go_inv; auto; try fromI I.
  - apply (i_hist _ _ I). now apply nth_In.
  - intros j. destruct (Nat.eqb_spec k (length (w_hist w) - 1)); [discriminate|]. intros [= <-]. lia.
Qed.

Lemma hist_pos w g : inv w g -> 0 < length (w_hist w).
Proof. intros I. destruct (i_hist_hd _ _ I) as [l ->]. cbn. lia. Qed.

Lemma undo_inv w g n : inv w g -> exists w', undo n w = Ok w' /\ inv w' g.
Proof.
  intros I. pose proof (hist_pos w g I). unfold undo. destruct (_ || _); [eauto|].
  destruct (w_brow w) as [k|] eqn:B.
  - apply browse_inv; [assumption|]. apply (i_brow _ _ I) in B. lia.
  - apply browse_inv; [assumption|]. lia.
Qed.

Lemma redo_inv w g n : inv w g -> exists w', redo n w = Ok w' /\ inv w' g.
Proof.
  intros I. pose proof (hist_pos w g I). unfold redo. destruct ((n =? 0) || negb (can_redo n w)) eqn:C; [eauto|].
  destruct (w_brow w) as [k|] eqn:B.
  - apply browse_inv; [assumption|]. lia.
  - unfold can_redo in C. rewrite B in C. destruct (n =? 0); discriminate.
Qed.

Lemma take_care_eq w g o c t v : inv w g -> assoc o (w_objs w) = Some (new_orig c t v) ->
  In t (ancestors_self (w_heap w) (w_cur w)) -> take_care_of o w = Ok (set_regs w (w_regs w ++ [o])).
Proof.
  intros I Hx Ht. unfold take_care_of. rewrite Hx. cbn.
  apply anc_incl in Ht. destruct (Nat.eqb_spec t null) as [->|_].
  { rewrite wf_not_null in Ht; [discriminate | apply I]. }
  now rewrite Ht, root_of_alive, (i_root _ _ I), Nat.eqb_refl by (auto; apply I).
Qed.

Theorem step_inv w g x : inv w g -> permitted w g x ->
  exists w', step w x = Ok w' /\ (births_alive w' (gstep g w x) -> inv w' (gstep g w x)).
Proof.
  intros I P. pose proof (i_wf _ _ I) as W. destruct x as [a dying|o c t v|o|o t v|o|n|n|t|t| | |t dying|a|dying|b|o|dying]; cbn [step gstep permitted] in *.
  - (* NextTimepoint *)
    destruct P as [Ha Hd]. unfold make_next_timepoint.
    destruct (stop_inv w g dying I) as (w1 & E & Ec & Eb & Eh & Hal & Htr & Hb).
    rewrite E. cbn [bind]. specialize (Hd w1 E).
    destruct (alive (w_heap w1) (w_cur w1)) eqn:Ac.
    + eexists. split; [reflexivity|]. intros B. rewrite <- Ec.
      assert (B1 : births_alive w1 g).
      { intros o Ho. destruct (B o Ho) as (t & Ht & Hs). cbn in Hs, Ht.
        destruct (Htr o Ho) as [Hr Hx]. destruct (assoc o (w_objs w)) as [x|] eqn:Ex; [|congruence].
        pose proof (i_objs _ _ I o x Hr Ex) as X.
        assert (g_born g o < g_n g).
        { rewrite <- (ok_born _ _ _ _ _ X). apply (i_ser_lt _ _ I). apply X. }
        unfold upd in Hs. destruct (Nat.eqb_spec t a) as [->|Hta]; [lia|]. exists t. split; [|assumption].
        unfold add_child in Ht. rewrite alive_cons in Ht. apply orb_true_iff in Ht as [Ht|Ht]; [|assumption].
        apply Nat.eqb_eq in Ht. contradiction. }
      apply Hb in B1. apply (next_inv w1 g a B1 Ha Hd).
    + (* the current timepoint is always kept *)
      exfalso. unfold stop_browsing_user_history in E. destruct (w_brow w) as [k|] eqn:B.
      * assert (I' : inv (set_hist w (firstn (S k) (w_hist w)) None) g).
        { apply hist_inv; auto.
          - intros u Hu. apply (i_hist _ _ I). rewrite <- (firstn_skipn (S k)). apply in_or_app. now left.
          - destruct (i_hist_hd _ _ I) as [l ->]. cbn. eauto.
          - discriminate. }
        cbn [w_auto set_hist] in E. destruct (w_auto w).
        -- destruct (gc_ok _ _ I' dying) as (w' & E' & Eh' & _). rewrite E in E'. injection E' as <-.
           rewrite Eh', new_alive, Ec in Ac. pose proof (keep_cur _ _ I') as Kc. cbn in Ac, Kc. congruence.
        -- injection E as <-. cbn in Ac. rewrite (i_cur _ _ I) in Ac. discriminate.
      * injection E as <-. rewrite (i_cur _ _ I) in Ac. discriminate.
  - (* Create *)
    eexists. split; [reflexivity|]. intros _. destruct (i_made _ _ I o P) as [Ho Hf].
    assert (Nr : ~ In o (w_regs w)) by (intros H; apply (i_reg_first _ _ I) in H; contradiction).
    constructor; cbn; try fromI I.
    + intros o'. unfold upd. destruct (Nat.eqb_spec o' o) as [->|Hn]; [discriminate|].
      intros Hm. destruct (i_made _ _ I o' Hm) as [H1 H2]. split; [|assumption].
      rewrite assoc_app, H1. cbn. now rewrite (proj2 (Nat.eqb_neq _ _) Hn).
    + intros o' x Hf' Hx. rewrite assoc_app in Hx. unfold upd.
      destruct (Nat.eqb_spec o' o) as [->|Hn].
      * rewrite Ho in Hx. cbn in Hx. rewrite Nat.eqb_refl in Hx. injection Hx as <-. eauto.
      * destruct (assoc o' (w_objs w)) as [y|] eqn:Ey.
        -- injection Hx as ->. apply (i_fresh _ _ I); auto.
        -- cbn in Hx. rewrite (proj2 (Nat.eqb_neq _ _) Hn) in Hx. discriminate.
    + intros o' x Hr Hx. rewrite assoc_app in Hx.
      assert (Hn : o' <> o) by congruence.
      destruct (assoc o' (w_objs w)) as [y|] eqn:Ey.
      * injection Hx as ->. destruct (i_objs _ _ I o' x Hr Ey). constructor; cbn; auto.
      * cbn in Hx. rewrite (proj2 (Nat.eqb_neq _ _) Hn) in Hx. discriminate.
  - (* TakeCareOf *)
    destruct P as (Hf & Hx & Hb). destruct (assoc o (w_objs w)) as [x|] eqn:Ex; [|congruence].
    destruct (i_fresh _ _ I o x Hf Ex) as (c & t & v & Hm & ->). specialize (Hb t v Hm).
    unfold on_branch in Hb. apply reaches_anc in Hb; [|assumption].
    rewrite (take_care_eq w g o c t v I Ex Hb). eexists. split; [reflexivity|]. intros _.
    rewrite Hm. change (inv (set_regs w (w_regs w ++ [o]))
      (wghost g o t v (upd (g_first g) o (Some v)) (upd (g_born g) o (g_ser g t)))).
    assert (Nr : ~ In o (w_regs w)) by (intros H; apply (i_reg_first _ _ I) in H; contradiction).
    constructor; cbn; try fromI I.
    + apply NoDup_snoc; [apply I | assumption].
    + intros o' Hm'. destruct (i_made _ _ I o' Hm') as [H1 H2]. split; [assumption|].
      unfold upd. destruct (Nat.eqb_spec o' o) as [->|]; [congruence | assumption].
    + intros o' Hr. unfold upd. destruct (Nat.eqb_spec o' o) as [->|]; [discriminate|].
      apply in_app_or in Hr as [Hr|[->|[]]]; [now apply (i_reg_first _ _ I) | congruence].
    + intros o'. unfold upd, snap_write. destruct (Nat.eqb_spec o' o) as [->|]; [discriminate|].
      cbn. apply (i_snap_none _ _ I).
    + intros o' x'. unfold upd. destruct (Nat.eqb_spec o' o) as [->|]; [discriminate|].
      apply (i_fresh _ _ I).
    + intros o' x' Hr Hx'. destruct (Nat.eq_dec o' o) as [->|Hn].
      * rewrite Ex in Hx'. injection Hx' as <-. apply new_ok; auto.
        unfold upd. now rewrite Nat.eqb_refl.
      * apply in_app_or in Hr as [Hr|[->|[]]]; [|congruence].
        apply other_ok; auto; [now apply (i_objs _ _ I)| |]; unfold upd;
          now rewrite (proj2 (Nat.eqb_neq _ _) Hn).
  - (* SetState *)
    destruct P as ((Hr & Hx) & Hb & Hw). destruct (assoc o (w_objs w)) as [x|] eqn:Ex; [|congruence].
    unfold on_branch in Hb. apply reaches_anc in Hb; [|assumption].
    eexists. split; [reflexivity|]. intros _. rewrite (proj2 (mem_In _ _) Hr).
    change (inv (set_objs w (update_obj o (set_state t v x) (w_objs w)))
      (wghost g o t v (g_first g) (g_born g))).
    constructor; cbn; try fromI I.
    + intros o' Hm. destruct (i_made _ _ I o' Hm) as [H1 H2]. split; [|assumption].
      rewrite assoc_update. destruct (Nat.eqb_spec o' o) as [->|]; [congruence | assumption].
    + intros o' Hf s. unfold snap_write. destruct (Nat.eqb_spec o' o) as [->|].
      * now apply (i_reg_first _ _ I) in Hr.
      * cbn. now apply (i_snap_none _ _ I).
    + intros o' x' Hf. rewrite assoc_update. destruct (Nat.eqb_spec o' o) as [->|].
      * now apply (i_reg_first _ _ I) in Hr.
      * now apply (i_fresh _ _ I).
    + intros o' x' Hr' Hx'. rewrite assoc_update in Hx'. destruct (Nat.eqb_spec o' o) as [->|Hn].
      * rewrite Ex in Hx'. injection Hx' as <-. now apply write_ok.
      * apply other_ok; auto. now apply (i_objs _ _ I).
  - (* Read *)
    destruct P as (Hr & Hx). destruct (assoc o (w_objs w)) as [x|] eqn:Ex; [|congruence].
    destruct (get_state_ok _ _ _ _ _ W (i_cur _ _ I) (i_objs _ _ I o x Hr Ex)) as (v & -> & _).
    eexists. split; [reflexivity|]. intros _. cbn [fst].
    constructor; cbn; try fromI I.
    + intros o' Hm. destruct (i_made _ _ I o' Hm) as [H1 H2]. split; [|assumption].
      rewrite assoc_update. destruct (Nat.eqb_spec o' o) as [->|]; [congruence | assumption].
    + intros o' x' Hf. rewrite assoc_update. destruct (Nat.eqb_spec o' o) as [->|].
      * now apply (i_reg_first _ _ I) in Hr.
      * now apply (i_fresh _ _ I).
    + intros o' x' Hr' Hx'. rewrite assoc_update in Hx'. destruct (Nat.eqb_spec o' o) as [->|Hn].
      * rewrite Ex in Hx'. injection Hx' as <-. apply settled_ok. now apply (i_objs _ _ I).
      * now apply (i_objs _ _ I).
  - destruct (undo_inv w g n I) as (w' & E & I'). eauto.
  - destruct (redo_inv w g n I) as (w' & E & I'). eauto.
  - (* GoWithoutRemembering *)
    destruct P as [->|P]; [cbn; eauto|].
    rewrite (go_eq w g t I P). eexists. split; [reflexivity|]. intros _. cbn [fst].
    apply go_inv; auto; try fromI I.
  - (* GoAndRemember *)
    unfold go_and_remember. destruct P as [->|P]; [cbn; eauto|].
    rewrite (go_eq w g t I P). eexists. split; [reflexivity|]. intros _. cbn [fst].
    apply remember_inv. apply go_inv; auto; try fromI I.
  - eexists. split; [reflexivity|]. intros _. now apply remember_inv.
  - (* PinCurrent *)
    eexists. split; [reflexivity|]. intros _. unfold pin_current_timepoint.
    destruct (mem (w_cur w) (w_pins w)); [assumption|].
    constructor; cbn; try fromI I.
    intros t Ht. apply in_app_or in Ht as [Ht|[<-|[]]]; [now apply (i_pins _ _ I) | apply I].
  - (* Unpin *)
    unfold unpin.
    assert (I' : inv (set_pins w (filter (fun x => negb (x =? t)) (w_pins w))) g).
    { constructor; cbn; try fromI I. intros u Hu. apply filter_In in Hu as [Hu _]. now apply (i_pins _ _ I). }
    cbn [w_auto set_pins]. destruct (w_auto w); [|eauto].
    destruct (gc_ok _ _ I' dying) as (w' & E & H). exists w'. split; [assumption|]. apply H.
  - (* Annotate *)
    eexists. split; [reflexivity|]. intros _. unfold annotate_current_timepoint.
    destruct (assoc (w_cur w) (w_ann w)); [assumption|].
    constructor; cbn; try fromI I.
    intros t Ht. rewrite map_app in Ht. apply in_app_or in Ht as [Ht|[<-|[]]]; [now apply (i_ann _ _ I) | apply I].
  - destruct (gc_ok _ _ I dying) as (w' & E & H). exists w'. split; [assumption|]. apply H.
  - eexists. split; [reflexivity|]. intros _. constructor; cbn; fromI I.
  - (* Expire *)
    eexists. split; [reflexivity|]. intros _.
    assert (As : forall o', assoc o' (filter (fun e => negb (fst e =? o)) (w_objs w)) =
                            if o' =? o then None else assoc o' (w_objs w)).
    { intros o'. rewrite (assoc_filter (fun k => negb (k =? o))). now destruct (o' =? o). }
    constructor; cbn; try fromI I.
    + intros o' Hm. rewrite As. destruct (i_made _ _ I o' Hm). split; [|assumption]. now destruct (o' =? o).
    + intros o' x Hf. rewrite As. destruct (o' =? o); [discriminate|]. now apply (i_fresh _ _ I).
    + intros o' x Hr. rewrite As. destruct (o' =? o); [discriminate|]. now apply (i_objs _ _ I).
  - (* Reset *)
    unfold reset.
    match goal with |- context [garbage_collector dying ?x] => set (w0 := x) end.
    assert (I' : inv w0 g).
    { constructor; cbn; try fromI I; auto; try (intros; contradiction).
      - rewrite (i_root _ _ I). now apply alive_root.
      - intros t Ht. destruct (i_hist_hd _ _ I) as [l E]. rewrite E in Ht.
        cbn in Ht. destruct Ht as [<-|[]]. rewrite (i_root _ _ I). now apply alive_root.
      - destruct (i_hist_hd _ _ I) as [l ->]. cbn. eauto.
      - discriminate.
      - constructor. }
    destruct (gc_ok _ _ I' dying) as (w' & E & H). exists w'. split; [assumption|]. apply H.
Qed.

Lemma init_inv r : r <> null -> inv (init_world r) (ghost0 : ghost).
Proof.
  intros Hr.
  assert (Al : forall t, alive [(r, null)] t = true <-> t = r).
  { intros t. rewrite alive_cons, orb_true_iff, Nat.eqb_eq. cbn. split; [intros [->|H]; [reflexivity | discriminate] | auto]. }
  constructor; cbn; auto; try discriminate; try tauto.
  - now apply Al.
  - intros t [<-|[]]. now apply Al.
  - eauto.
  - intros t u Ht Hu _. apply Al in Ht, Hu. congruence.
  - intros t Ht. apply Al in Ht as ->. rewrite Nat.eqb_refl. reflexivity.
  - constructor.
Qed.

Theorem reachable_inv w g : reachable w g -> inv w g.
Proof.
  induction 1 as [r Hr | w g x w' R IH P E B].
  - now apply init_inv.
  - destruct (step_inv w g x IH P) as (w'' & E' & H). rewrite E in E'. injection E' as <-. auto.
Qed.

End WithStates.

Ltac fromI I :=
  first [exact (i_wf _ _ I)
        | exact (i_root _ _ I)
        | exact (i_cur _ _ I)
        | exact (i_pins _ _ I)
        | exact (i_hist _ _ I)
        | exact (i_hist_hd _ _ I)
        | exact (i_brow _ _ I)
        | exact (i_ann _ _ I)
        | exact (i_ser_lt _ _ I)
        | exact (i_ser_inj _ _ I)
        | exact (i_path _ _ I)
        | exact (i_regs _ _ I)
        | exact (i_made _ _ I)
        | exact (i_reg_first _ _ I)
        | exact (i_snap_none _ _ I)
        | exact (i_fresh _ _ I)
        | exact (i_objs _ _ I) ].
