(** Lemmas on sequences of operations that obey the discipline of GuiSpec.v:
    what was read at a timepoint that stays pinned remains true there. *)
From Coq Require Import List Arith Bool Lia.
From Verif Require Import HistModel HistSpec HistTreeProofs HistProofs HistNavProofs HistMoreProofs AppModel GuiModel GuiSpec.
Import ListNotations.

Section WithStates.
Context {V : Type}.
Notation world := (world V Step).
Notation op := (op V Step).
Notation ghost := (ghost V).
Notation scene := (scene V).

(** * What an operation leaves unchanged *)
Record frame (x : op) (w w' : world) : Prop := {
  f_root : w_root w' = w_root w;
  f_pins : forall t, In t (w_pins w) -> In t (w_pins w');
  f_regs : forall o, In o (w_regs w') -> In o (w_regs w) \/ x = TakeCareOf o;
  f_keep : forall o, In o (w_regs w) -> assoc o (w_objs w') <> None -> In o (w_regs w');
  f_objs : forall o, assoc o (w_objs w') <> None ->
             assoc o (w_objs w) <> None \/ exists c t v, x = Create o c t v;
  f_nodup : NoDup (map fst (w_objs w)) -> (forall o c t v, x = Create o c t v -> assoc o (w_objs w) = None) -> NoDup (map fst (w_objs w'))
}.

Lemma update_keys o (x : orig V) objs : map fst (update_obj o x objs) = map fst objs.
Proof.
  unfold update_obj. rewrite map_map. apply map_ext. intros [k y]. cbn. now destruct (k =? o).
Qed.

Lemma go_keys (f : nat -> bool) t (objs : list (nat * orig V)) :
  map fst (map (fun e => if f (fst e) then (fst e, go t (snd e)) else e) objs) = map fst objs.
Proof. rewrite map_map. apply map_ext. intros [k y]. cbn. now destruct (f k). Qed.

Lemma keys_assoc (l l' : list (nat * orig V)) o : map fst l = map fst l' ->
  (assoc o l <> None <-> assoc o l' <> None).
Proof. intros E. rewrite !assoc_Some_iff. now rewrite E. Qed.

Lemma erase_all_keys h ts regs : forall objs objs' : list (nat * orig V),
  erase_all h ts regs objs = Ok objs' -> map fst objs' = map fst objs.
Proof.
  induction regs as [|r regs IH]; cbn; intros objs objs'; [now intros [= <-]|].
  destruct (assoc r objs); [|apply IH].
  destruct (erase h ts o); cbn; try discriminate. intros E. rewrite (IH _ _ E). apply update_keys.
Qed.

Lemma gc_keys dying (w w' : world) : garbage_collector dying w = Ok w' ->
  map fst (w_objs w') = filter (fun o => negb (mem o dying)) (map fst (w_objs w)).
Proof.
  unfold garbage_collector. destruct (forallb _ _); [|discriminate].
  destruct (erase_all _ _ _ _) as [objs| |] eqn:E; cbn; try discriminate. intros [= <-]. cbn.
  rewrite (map_fst_filter (fun o => negb (mem o dying))). now rewrite (erase_all_keys _ _ _ _ _ E).
Qed.

Lemma gc_root dying (w w' : world) : garbage_collector dying w = Ok w' -> w_root w' = w_root w.
Proof.
  unfold garbage_collector. destruct (forallb _ _); [|discriminate].
  destruct (erase_all _ _ _ _) as [objs| |] eqn:E; cbn; try discriminate. now intros [= <-].
Qed.

Lemma gc_regs dying (w w' : world) : garbage_collector dying w = Ok w' ->
  forall o, In o (w_regs w') <-> In o (w_regs w) /\ assoc o (w_objs w') <> None.
Proof.
  unfold garbage_collector. destruct (forallb _ _); [|discriminate].
  destruct (erase_all _ _ _ _) as [objs| |] eqn:E; cbn; try discriminate. intros [= <-]. cbn.
  intros o. rewrite filter_In. destruct (assoc o _); intuition congruence.
Qed.

Lemma stop_frame dying (w w' : world) : stop_browsing_user_history dying w = Ok w' ->
  w_root w' = w_root w /\ w_pins w' = w_pins w /\
  (forall o, In o (w_regs w') -> In o (w_regs w)) /\
  (forall o, In o (w_regs w) -> assoc o (w_objs w') <> None -> In o (w_regs w')) /\
  (forall o, assoc o (w_objs w') <> None -> assoc o (w_objs w) <> None) /\
  (NoDup (map fst (w_objs w)) -> NoDup (map fst (w_objs w'))).
Proof.
  unfold stop_browsing_user_history. destruct (w_brow w) as [k|]; [|intros [= <-]; tauto].
  cbn [w_auto set_hist]. destruct (w_auto w); [|intros [= <-]; cbn; tauto].
  intros E. pose proof (gc_keys _ _ _ E) as K. pose proof (gc_regs _ _ _ E) as R. pose proof (gc_root _ _ _ E) as Ro.
  destruct (gc_hist _ _ _ E) as (_ & _ & P & _). cbn in *. split; [assumption|]. split; [assumption|].
  split; [intros o H; now apply R in H|]. split; [intros o H1 H2; now apply R|]. split.
  - intros o. rewrite !assoc_Some_iff, K. rewrite filter_In. tauto.
  - rewrite K. apply NoDup_filter.
Qed.

Lemma go_frame t (w : world) r : go_without_remembering t w = Ok r ->
  w_root (fst r) = w_root w /\ w_pins (fst r) = w_pins w /\ w_regs (fst r) = w_regs w /\
  map fst (w_objs (fst r)) = map fst (w_objs w) /\ w_heap (fst r) = w_heap w /\ w_ann (fst r) = w_ann w.
Proof.
  unfold go_without_remembering. destruct (_ =? _); [intros [= <-]; cbn; tauto|].
  destruct (alive _ _); [|discriminate]. destruct (_ =? _); intros [= <-]; cbn; [|tauto].
  rewrite (go_keys (fun o => mem o (w_regs w))). tauto.
Qed.

Lemma browse_frame k (w w' : world) : browse_to k w = Ok w' ->
  w_root w' = w_root w /\ w_pins w' = w_pins w /\ w_regs w' = w_regs w /\
  map fst (w_objs w') = map fst (w_objs w) /\ w_heap w' = w_heap w /\ w_ann w' = w_ann w.
Proof.
  unfold browse_to. destruct (go_without_remembering _ _) as [r| |] eqn:E; cbn; try discriminate. intros [= <-].
  apply go_frame in E. exact E.
Qed.

(** The operations other than the creation of timepoints and of objects. *)
Definition quiet (x : op) : bool :=
  match x with
  | Read _ | Undo _ | Redo _ | GoWithoutRemembering _ | GoAndRemember _ | RememberCurrent | PinCurrent | Annotate _ => true
  | _ => false
  end.

Lemma quiet_frame x (w w' : world) : quiet x = true -> step w x = Ok w' ->
  w_root w' = w_root w /\ (forall t, In t (w_pins w) -> In t (w_pins w')) /\ w_regs w' = w_regs w /\
  map fst (w_objs w') = map fst (w_objs w) /\ w_heap w' = w_heap w.
Proof.
  destruct x; cbn [quiet step]; try discriminate; intros _.
  - destruct (assoc o (w_objs w)); [|discriminate]. destruct (get_current_state _ _); cbn; try discriminate.
    intros [= <-]. cbn. rewrite update_keys. auto.
  - unfold undo. destruct (_ || _); [intros [= <-]; auto|].
    destruct (w_brow w); intros E; apply browse_frame in E as (-> & -> & -> & -> & -> & _); auto.
  - unfold redo. destruct (_ || _); [intros [= <-]; auto|].
    destruct (w_brow w); [|discriminate]. intros E; apply browse_frame in E as (-> & -> & -> & -> & -> & _); auto.
  - destruct (go_without_remembering t w) as [r| |] eqn:E; cbn; try discriminate. intros [= <-].
    apply go_frame in E as (-> & -> & -> & -> & -> & _). auto.
  - unfold go_and_remember. destruct (go_without_remembering t w) as [r| |] eqn:E; cbn; try discriminate.
    apply go_frame in E as (E1 & E2 & E3 & E4 & E5 & _).
    destruct (snd r); cbn; intros [= <-]; [|rewrite E1, E2, E3, E4, E5; auto].
    unfold remember_current_timepoint. destruct (_ =? _); cbn; rewrite E1, E2, E3, E4, E5; auto.
  - intros [= <-]. unfold remember_current_timepoint. destruct (_ =? _); cbn; auto.
  - intros [= <-]. unfold pin_current_timepoint. destruct (mem _ _); cbn; repeat split; auto.
    intros t Ht. apply in_or_app. now left.
  - intros [= <-]. unfold annotate_current_timepoint. destruct (assoc _ _); cbn; auto.
Qed.

Lemma step_frame x (w w' : world) (g : ghost) new : inv w g -> permitted w g x -> disciplined w new x ->
  step w x = Ok w' -> frame x w w'.
Proof.
  intros I P D E. destruct (quiet x) eqn:Q.
  { destruct (quiet_frame x w w' Q E) as (H1 & H2 & H3 & H4 & H5). constructor; auto.
    - rewrite H3. auto.
    - rewrite H3. auto.
    - intros o. rewrite (keys_assoc _ (w_objs w) o) by assumption. auto.
    - rewrite H4. auto. }
  destruct x; try discriminate; try (destruct D; fail); cbn [step] in E.
  - unfold make_next_timepoint in E. destruct (stop_browsing_user_history dying w) as [w1| |] eqn:S; try discriminate.
    cbn in E. destruct (alive _ _); [|discriminate]. injection E as <-.
    destruct (stop_frame _ _ _ S) as (H1 & H2 & H3 & H4 & H5 & H6). constructor; cbn; auto.
    now rewrite H2.
  - injection E as <-. constructor; cbn; auto.
    + intros o'. rewrite assoc_app. destruct (assoc o' (w_objs w)); [left; congruence|]. cbn.
      destruct (Nat.eqb_spec o' o) as [->|]; [eauto 6 | congruence].
    + intros ND H. rewrite map_app. apply NoDup_snoc; [assumption|]. cbn.
      apply assoc_None. eapply H. reflexivity.
  - destruct P as (Hf & Hx & Hb). destruct (assoc o (w_objs w)) as [x|] eqn:Ex; [|congruence].
    destruct (i_fresh _ _ I o x Hf Ex) as (c & t & v & Hm & ->). specialize (Hb t v Hm).
    apply reaches_anc in Hb; [|apply I].
    rewrite (take_care_eq w g o c t v I Ex Hb) in E. injection E as <-. constructor; cbn; auto.
    + intros o' H. apply in_app_or in H as [H|[->|[]]]; auto.
    + intros o' H _. apply in_or_app. auto.
  - destruct (assoc o (w_objs w)) eqn:Ex; [|discriminate]. injection E as <-. constructor; cbn; auto.
    + intros o'. rewrite (keys_assoc _ (w_objs w) o') by apply update_keys. auto.
    + rewrite update_keys. auto.
  - injection E as <-. constructor; cbn; auto.
    + intros o'. rewrite (assoc_filter (fun k => negb (k =? o))). destruct (negb _); [auto | congruence].
    + rewrite (map_fst_filter (fun k => negb (k =? o))). intros. now apply NoDup_filter.
Qed.

(** The collection keeps the pinned timepoints and the root. *)
Lemma stop_keeps dying (w w1 : world) (g : ghost) t : inv w g -> stop_browsing_user_history dying w = Ok w1 ->
  In t (w_pins w) \/ t = w_root w -> alive (w_heap w1) t = true.
Proof.
  intros I St H.
  assert (H0 : alive (w_heap w) t = true).
  { destruct H as [H| ->]; [now apply (i_pins _ _ I)|]. rewrite (i_root _ _ I). apply alive_root, I. }
  unfold stop_browsing_user_history in St. destruct (w_brow w) as [k|] eqn:Bk; [|now injection St as <-].
  assert (I' : inv (set_hist w (firstn (S k) (w_hist w)) None) g).
  { apply hist_inv; auto.
    - intros u Hu. apply (i_hist _ _ I). rewrite <- (firstn_skipn (S k)). apply in_or_app. now left.
    - destruct (i_hist_hd _ _ I) as [l ->]. cbn. eauto.
    - discriminate. }
  cbn [w_auto set_hist] in St. destruct (w_auto w); [|now injection St as <-].
  pose proof (gc_exists _ g _ _ I' St t) as G. cbn in G. apply G. destruct H as [H| ->].
  - exists t. split; [auto|]. apply reaches_anc; [apply I|]. now apply anc_self_In.
  - exists (w_cur w). split; [auto|]. apply reaches_anc; [apply I|]. rewrite (i_root _ _ I). apply anc_root_In; apply I.
Qed.

(** * Reachable worlds *)
Lemma reach_root (w : world) (g : ghost) : reachable w g -> g_ser g (w_root w) = 0.
Proof.
  induction 1 as [r Hr | w g x w' R IH P E B]; [reflexivity|].
  pose proof (reachable_inv w g R) as I.
  assert (Er : w_root w' = w_root w).
  { destruct (quiet x) eqn:Q; [now apply (quiet_frame x w w' Q E)|].
    destruct x; try discriminate; cbn [step] in E.
    - unfold make_next_timepoint in E. destruct (stop_browsing_user_history dying w) as [w1| |] eqn:S; try discriminate.
      cbn in E. destruct (alive _ _); [|discriminate]. injection E as <-. cbn. now apply stop_frame in S.
    - now injection E as <-.
    - unfold take_care_of in E. destruct (assoc _ _); [|now injection E as <-].
      destruct (_ =? _); [now injection E as <-|]. destruct (alive _ _); [|discriminate].
      destruct (_ =? _); now injection E as <-.
    - destruct (assoc _ _); [|discriminate]. now injection E as <-.
    - unfold unpin in E. cbn in E. destruct (w_auto w); [now apply gc_root in E | now injection E as <-].
    - now apply gc_root in E.
    - now injection E as <-.
    - now injection E as <-.
    - unfold reset in E. now apply gc_root in E. }
  rewrite Er. destruct x; cbn [gstep]; auto.
  - cbn. unfold upd. destruct (Nat.eqb_spec (w_root w) a) as [e|]; [|assumption]. exfalso.
    destruct P as [_ P]. cbn [step] in E. unfold make_next_timepoint in E.
    destruct (stop_browsing_user_history dying w) as [w1| |] eqn:St; try discriminate. specialize (P w1 eq_refl).
    pose proof (stop_keeps dying w w1 g (w_root w) I St (or_intror eq_refl)). congruence.
  - destruct (g_made g o) as [[t v]|]; cbn; assumption.
  - destruct (mem o (w_regs w)); cbn; assumption.
Qed.

(** The document's own objects, in terms of the reference machine. *)
Lemma root_object_born (w : world) (g : ghost) o : reachable w g ->
  (root_object w o <-> tracked w o /\ g_born g o = 0).
Proof.
  intros R. pose proof (reachable_inv w g R) as I. pose proof (reach_root w g R) as Z. split.
  - intros (Hr & x & Ex & Ei). split; [split; [assumption | congruence]|].
    rewrite <- (ok_born _ _ _ _ _ (i_objs _ _ I o x Hr Ex)), Ei. assumption.
  - intros ((Hr & Hx) & Hb). split; [assumption|]. destruct (assoc o (w_objs w)) as [x|] eqn:Ex; [|congruence].
    exists x. split; [reflexivity|]. pose proof (i_objs _ _ I o x Hr Ex) as X.
    apply (i_ser_inj _ _ I); [apply X| |].
    + rewrite (i_root _ _ I). apply alive_root, I.
    + rewrite (ok_born _ _ _ _ _ X). congruence.
Qed.

Lemma exists_now_born (w : world) (g : ghost) o : reachable w g ->
  (exists_now w o <-> tracked w o /\ mem (g_born g o) (g_path g (g_ser g (w_cur w))) = true).
Proof.
  intros R. pose proof (reachable_inv w g R) as I.
  assert (B : forall x, In o (w_regs w) -> assoc o (w_objs w) = Some x ->
    (on_branch w (o_init x) <-> mem (g_born g o) (g_path g (g_ser g (w_cur w))) = true)).
  { intros x Hr Ex. pose proof (i_objs _ _ I o x Hr Ex) as X. unfold on_branch.
    rewrite reaches_anc by apply I. rewrite <- (ok_born _ _ _ _ _ X), (mem_path w g); [now rewrite mem_In | assumption | apply X | apply I]. }
  split.
  - intros (Hr & x & Ex & Hb). split; [split; [assumption | congruence]|]. now apply (B x).
  - intros ((Hr & Hx) & Hb). split; [assumption|]. destruct (assoc o (w_objs w)) as [x|] eqn:Ex; [|congruence].
    exists x. split; [reflexivity|]. now apply (B x).
Qed.

(** * Scenes kept in a cache *)
Definition cache_ok (w : world) (g : ghost) (t : tp) (sc : scene) : Prop :=
  (forall o v, In (o, v) sc ->
     (g_first g o = None /\ exists u, g_made g o = Some (u, v)) \/
     (g_first g o <> None /\ (In o (w_regs w) -> snapshot g t o = Some v))) /\
  (forall o, tracked w o -> mem (g_born g o) (g_path g (g_ser g t)) = true -> In o (map fst sc)).

Record good (cs : list (tp * scene)) (old : list oid) (w : world) (g : ghost) : Prop := {
  gd_reach : reachable w g;
  gd_nodup : NoDup (map fst (w_objs w));
  gd_known : forall o, assoc o (w_objs w) <> None -> In o (w_regs w) \/ g_first g o = None \/ In o old;
  gd_pins : forall t sc, In (t, sc) cs -> In t (w_pins w);
  gd_cache : forall t sc, In (t, sc) cs -> cache_ok w g t sc
}.

Definition apart (cs : list (tp * scene)) (g : ghost) (new : list tp) : Prop :=
  forall t sc u, In (t, sc) cs -> In u new -> mem (g_ser g u) (g_path g (g_ser g t)) = false.

Lemma path_lt (w : world) (g : ghost) t s : inv w g -> alive (w_heap w) t = true ->
  mem s (g_path g (g_ser g t)) = true -> s < g_n g.
Proof.
  intros I Ht H. rewrite (i_path _ _ I) in H by assumption. apply mem_In, in_map_iff in H as (u & <- & Hu).
  apply (i_ser_lt _ _ I). eapply anc_incl; eauto.
Qed.

(** A pinned timepoint is not a new one. *)
Lemma pinned_not_new (w w' : world) (g : ghost) a dying t : inv w g -> In t (w_pins w) ->
  permitted w g (NextTimepoint a dying) -> step w (NextTimepoint a dying) = Ok w' -> t <> a.
Proof.
  intros I Ht [_ P] E ->. cbn [step] in E. unfold make_next_timepoint in E.
  destruct (stop_browsing_user_history dying w) as [w1| |] eqn:St; try discriminate. specialize (P w1 eq_refl).
  pose proof (stop_keeps dying w w1 g a I St (or_introl Ht)). congruence.
Qed.

Lemma good_step cs old (w w' : world) (g : ghost) new x : good cs old w g -> apart cs g new ->
  permitted w g x -> disciplined w new x -> step w x = Ok w' -> births_alive w' (gstep g w x) ->
  good cs old w' (gstep g w x) /\ apart cs (gstep g w x) (new_after new x).
Proof.
  intros G A P D E B. pose proof (gd_reach _ _ _ _ G) as R. pose proof (reachable_inv w g R) as I.
  pose proof (step_frame x w w' g new I P D E) as F.
  assert (R' : reachable w' (gstep g w x)) by (eapply reach_step; eauto).
  assert (Al : forall t sc, In (t, sc) cs -> alive (w_heap w) t = true).
  { intros t sc H. apply (i_pins _ _ I). eapply gd_pins; eauto. }
  (* the reference machine keeps the numbers and the paths of the timepoints cached *)
  assert (Ser : forall t sc, In (t, sc) cs -> g_ser (gstep g w x) t = g_ser g t).
  { intros t sc H. destruct x; cbn [gstep]; try reflexivity.
    - cbn. unfold upd. destruct (Nat.eqb_spec t a) as [->|]; [|reflexivity]. exfalso.
      eapply (pinned_not_new w w' g a dying a); eauto. eapply gd_pins; eauto.
    - now destruct (g_made g o) as [[? ?]|].
    - now destruct (mem o (w_regs w)). }
  assert (Path : forall t sc, In (t, sc) cs -> g_path (gstep g w x) (g_ser g t) = g_path g (g_ser g t)).
  { intros t sc H. destruct x; cbn [gstep]; try reflexivity.
    - cbn. unfold upd. pose proof (i_ser_lt _ _ I t (Al t sc H)). destruct (Nat.eqb_spec (g_ser g t) (g_n g)); [lia | reflexivity].
    - now destruct (g_made g o) as [[? ?]|].
    - now destruct (mem o (w_regs w)). }
  assert (Ap : apart cs (gstep g w x) (new_after new x)).
  { intros t sc u Ht Hu. rewrite (Ser t sc Ht), (Path t sc Ht).
    destruct x; cbn [gstep new_after] in *; try (eapply A; eauto; fail).
    - cbn. unfold upd. destruct (Nat.eqb_spec u a) as [->|].
      + destruct (mem (g_n g) (g_path g (g_ser g t))) eqn:M; [|reflexivity]. exfalso.
        apply (path_lt w g) in M; eauto. lia.
      + destruct Hu as [<-|Hu]; [contradiction|]. eapply A; eauto.
    - destruct (g_made g o) as [[? ?]|]; cbn; eapply A; eauto.
    - destruct (mem o (w_regs w)); cbn; eapply A; eauto. }
  split; [|assumption]. constructor.
  - assumption.
  - apply (f_nodup _ _ _ F); auto; [apply G|]. intros o c t v ->. cbn in P. now apply (i_made _ _ I).
  - intros o Ho. destruct (f_objs _ _ _ F o Ho) as [H|(c & t & v & ->)].
    + destruct (gd_known _ _ _ _ G o H) as [K|[K|K]]; auto.
      * left. now apply (f_keep _ _ _ F).
      * destruct x; cbn [gstep]; auto.
        -- destruct (Nat.eq_dec o o0) as [<-|Hn].
           ++ left. pose proof P as (Pf & Px & Pb). destruct (assoc o (w_objs w)) as [x|] eqn:Ex; [|congruence].
              destruct (i_fresh _ _ I o x Pf Ex) as (c & t & v & Hm & ->). specialize (Pb t v Hm).
              apply reaches_anc in Pb; [|apply I]. cbn [step] in E.
              rewrite (take_care_eq w g o c t v I Ex Pb) in E. injection E as <-. cbn. apply in_or_app. cbn. auto.
           ++ right; left. destruct (g_made g o0) as [[? ?]|]; cbn; [|assumption].
              unfold upd. now rewrite (proj2 (Nat.eqb_neq _ _) Hn).
        -- right; left. destruct (mem o0 (w_regs w)); assumption.
    + right; left. cbn in P. cbn. now apply (i_made _ _ I).
  - intros t sc H. apply (f_pins _ _ _ F). eapply gd_pins; eauto.
  - intros t sc H. destruct (gd_cache _ _ _ _ G t sc H) as [C1 C2]. split.
    + intros o v Hv. specialize (C1 o v Hv). unfold snapshot. rewrite (Ser t sc H).
      destruct x; cbn [gstep] in *; try (destruct C1 as [C1|[C1 C1']]; [left; assumption | right; split; [assumption|]; intros Hr; apply C1'; destruct (f_regs _ _ _ F o Hr) as [?|?]; [assumption | discriminate]]; fail).
      * (* NextTimepoint *)
        destruct C1 as [C1|[C1 C1']]; [left; assumption|]. right. split; [assumption|]. intros Hr. cbn.
        assert (Hr' : In o (w_regs w)) by (destruct (f_regs _ _ _ F o Hr) as [?|?]; [assumption | discriminate]).
        specialize (C1' Hr'). unfold snapshot in C1'. unfold upd. pose proof (i_ser_lt _ _ I t (Al t sc H)).
        destruct (Nat.eqb_spec (g_ser g t) (g_n g)); [lia | assumption].
      * (* Create *)
        cbn. destruct C1 as [[C1 (u & Cu)]|[C1 C1']].
        -- left. split; [assumption|]. exists u. unfold upd. destruct (Nat.eqb_spec o o0) as [->|]; [|assumption].
           cbn in P. congruence.
        -- right. split; [assumption|]. intros Hr. apply C1'. destruct (f_regs _ _ _ F o Hr) as [?|?]; [assumption | discriminate].
      * (* TakeCareOf *)
        pose proof P as (Pf & Px & Pb). destruct (assoc o0 (w_objs w)) as [x|] eqn:Ex; [|congruence].
        destruct (i_fresh _ _ I o0 x Pf Ex) as (c & u & v0 & Hm & ->). rewrite Hm. cbn.
        assert (Ns : mem (g_ser g u) (g_path g (g_ser g t)) = false).
        { eapply A; eauto. cbn in D. now apply (D (new_orig c u v0)). }
        unfold upd, snap_write. destruct (Nat.eqb_spec o o0) as [->|Hn].
        -- right. split; [discriminate|]. intros _. rewrite Ns. cbn. rewrite (i_snap_none _ _ I) by assumption.
           destruct C1 as [[_ (u' & Cu)]|[C1 _]]; [congruence | contradiction].
        -- cbn. destruct C1 as [C1|[C1 C1']]; [left; assumption|]. right. split; [assumption|].
           intros Hr. apply C1'. destruct (f_regs _ _ _ F o Hr) as [?|E1]; [assumption | congruence].
      * (* SetState *)
        destruct P as ((Pr & Px) & Pb & Pw). rewrite (proj2 (mem_In _ _) Pr). cbn.
        assert (Ns : mem (g_ser g t0) (g_path g (g_ser g t)) = false) by (eapply A; eauto).
        destruct C1 as [C1|[C1 C1']]; [left; assumption|]. right. split; [assumption|].
        intros Hr. unfold snap_write. rewrite Ns, andb_false_r. apply C1'.
        destruct (f_regs _ _ _ F o Hr) as [?|?]; [assumption | discriminate].
    + intros o [Hr Hx] Hb. rewrite (Ser t sc H), (Path t sc H) in Hb.
      assert (T : In o (w_regs w) -> tracked w o).
      { intros Hr'. split; [assumption|]. destruct (f_objs _ _ _ F o Hx) as [?|(c & u & v & ->)]; [assumption|].
        exfalso. cbn in P. apply (i_reg_first _ _ I o Hr'). now apply (i_made _ _ I). }
      destruct x; cbn [gstep] in *; try (apply C2; [|assumption]; apply T; destruct (f_regs _ _ _ F o Hr) as [?|?]; [assumption | discriminate]; fail).
      * (* TakeCareOf *)
        pose proof P as (Pf & Px & Pb). destruct (assoc o0 (w_objs w)) as [x|] eqn:Ex; [|congruence].
        destruct (i_fresh _ _ I o0 x Pf Ex) as (c & u & v0 & Hm & ->). rewrite Hm in Hb. cbn in Hb.
        unfold upd in Hb. destruct (Nat.eqb_spec o o0) as [->|Hn].
        -- exfalso. assert (Ns : mem (g_ser g u) (g_path g (g_ser g t)) = false); [|congruence].
           eapply A; eauto. cbn in D. now apply (D (new_orig c u v0)).
        -- apply C2; [|assumption]. apply T. destruct (f_regs _ _ _ F o Hr) as [?|E1]; [assumption | congruence].
      * destruct P as ((Pr & Px) & Pb & Pw). rewrite (proj2 (mem_In _ _) Pr) in Hb. apply C2; [|assumption].
        apply T. destruct (f_regs _ _ _ F o Hr) as [?|?]; [assumption | discriminate].
Qed.

Lemma root_object_step cs old (w w' : world) (g : ghost) new x o : good cs old w g ->
  permitted w g x -> disciplined w new x -> step w x = Ok w' -> births_alive w' (gstep g w x) ->
  (forall o, root_object w o -> assoc o (w_objs w') <> None) -> root_object w o -> root_object w' o.
Proof.
  intros G P D E B L H. pose proof (gd_reach _ _ _ _ G) as R. pose proof (reachable_inv w g R) as I.
  pose proof (step_frame x w w' g new I P D E) as F.
  assert (R' : reachable w' (gstep g w x)) by (eapply reach_step; eauto).
  pose proof (L o H) as Lo. apply (root_object_born w g o R) in H as ((Hr & Hx) & Hb).
  apply (root_object_born w' _ o R'). split; [split; [now apply (f_keep _ _ _ F) | assumption]|].
  destruct x; cbn [gstep]; auto.
  - destruct P as (Pf & _). destruct (g_made g o0) as [[? ?]|]; cbn; [|assumption]. unfold upd.
    destruct (Nat.eqb_spec o o0) as [->|]; [|assumption]. exfalso. now apply (i_reg_first _ _ I o0 Hr).
  - now destruct (mem o0 (w_regs w)).
Qed.

(** A sequence of operations that obeys the discipline, followed by others. *)
Lemma good_perform cs old xs ys : forall (w : world) (g : ghost) new, good cs old w g -> apart cs g new ->
  obeys w g new (xs ++ ys) ->
  exists w' new', perform xs w = Ok w' /\ good cs old w' (gperform g w xs) /\ apart cs (gperform g w xs) new' /\
    obeys w' (gperform g w xs) new' ys /\ gperform g w (xs ++ ys) = gperform (gperform g w xs) w' ys /\
    (forall o, root_object w o -> root_object w' o) /\ w_root w' = w_root w.
Proof.
  induction xs as [|x xs IH]; intros w g new G A O; cbn [app perform gperform].
  - exists w, new. cbn in O. auto 10.
  - cbn [app obeys] in O. destruct O as (P & D & O). pose proof (reachable_inv w g (gd_reach _ _ _ _ G)) as I.
    destruct (step_inv w g x I P) as (w1 & E & _). destruct (O w1 E) as (B & L & O').
    destruct (good_step cs old w w1 g new x G A P D E B) as [G1 A1]. rewrite E. cbn [bind].
    destruct (IH w1 _ _ G1 A1 O') as (w' & new' & E' & G' & A' & O2 & EG & Ro & Er). exists w', new'.
    split; [assumption|]. split; [assumption|]. split; [assumption|]. split; [assumption|]. split; [assumption|]. split.
    + intros o Ho. apply Ro. exact (root_object_step cs old w w1 g new x o G P D E B L Ho).
    + rewrite Er. apply (step_frame x w w1 g new I P D E).
Qed.

(** * The operations of [run] *)
Lemma perform_app (xs ys : list op) (w : world) : perform (xs ++ ys) w = do w1 <- perform xs w; perform ys w1.
Proof.
  revert w. induction xs as [|x xs IH]; intros w; cbn; [reflexivity|].
  destruct (step w x); cbn; auto.
Qed.

Lemma handle_all_ops (board : @behaviour V) steps hs : forall w tr,
  perform (run_ops board steps hs w) w =
  do r <- handle_all board steps hs (w, tr); Ok (remember_current_timepoint (fst r)).
Proof.
  induction hs as [|s hs IH]; intros w tr; [reflexivity|]. cbn [run_ops handle_all handle].
  destruct (existsb (Step_eqb s) steps) eqn:Es; cbn [bind]; [|apply IH].
  cbn [perform step bind]. rewrite perform_app.
  destruct (perform (board s (annotate_current_timepoint s w)) (annotate_current_timepoint s w)) as [w2| |];
    cbn [bind]; [apply IH | reflexivity | reflexivity].
Qed.

Lemma run_ops_ok (board : @behaviour V) steps w w' : perform (run_ops board steps handled w) w = Ok w' ->
  exists tr, run board steps w = Ok (w', tr).
Proof.
  rewrite (handle_all_ops board steps handled w []). unfold run.
  destruct (handle_all board steps handled (w, [])) as [r| |]; cbn; try discriminate. intros [= <-]. eauto.
Qed.

(** * Reading *)
Definition reading (w w' : world) : Prop :=
  exists objs, w' = set_objs w objs /\ map fst objs = map fst (w_objs w).

Lemma reading_refl w : reading w w.
Proof. exists (w_objs w). split; [now destruct w | reflexivity]. Qed.

Lemma reading_trans w1 w2 w3 : reading w1 w2 -> reading w2 w3 -> reading w1 w3.
Proof. intros (o2 & -> & K2) (o3 & -> & K3). exists o3. split; [reflexivity|]. cbn in K3. congruence. Qed.

Lemma reading_tracked w w' o : reading w w' -> (tracked w' o <-> tracked w o).
Proof. intros (objs & -> & K). unfold tracked. cbn. now rewrite (keys_assoc objs (w_objs w) o). Qed.

Lemma good_quiet cs old (w w' : world) (g : ghost) x : good cs old w g -> permitted w g x -> quiet x = true ->
  step w x = Ok w' -> good cs old w' g.
Proof.
  intros G P Q E. destruct (quiet_frame x w w' Q E) as (H1 & H2 & H3 & H4 & H5).
  assert (Eg : gstep g w x = g) by (destruct x; try discriminate; reflexivity).
  pose proof (good_step cs old w w' g [] x G) as K. rewrite Eg in K. apply K; auto.
  - intros t sc u _ [].
  - destruct x; try discriminate; exact Logic.I.
  - pose proof (reachable_inv w g (gd_reach _ _ _ _ G)) as I. intros o [Hr Hx]. rewrite H3 in Hr.
    rewrite (keys_assoc _ (w_objs w) o H4) in Hx. rewrite H5.
    destruct (assoc o (w_objs w)) as [y|] eqn:Ey; [|congruence]. pose proof (i_objs _ _ I o y Hr Ey) as X.
    exists (o_init y). split; apply X.
Qed.

Definition drawn (w : world) (g : ghost) (o : oid) (v : V) : Prop :=
  (g_first g o = None /\ exists u, g_made g o = Some (u, v)) \/
  (g_first g o <> None /\ (In o (w_regs w) -> snapshot g (w_cur w) o = Some v)).

Lemma read_ok cs old (w : world) (g : ghost) o : good cs old w g -> assoc o (w_objs w) <> None ->
  In o (w_regs w) \/ g_first g o = None ->
  exists w' v, read o w = Ok (w', v) /\ reading w w' /\ good cs old w' g /\ drawn w g o v.
Proof.
  intros G Hx K. pose proof (reachable_inv w g (gd_reach _ _ _ _ G)) as I.
  destruct (assoc o (w_objs w)) as [x|] eqn:Ex; [|congruence]. destruct K as [Hr|Hf].
  - destruct (get_state_ok _ _ _ _ _ (i_wf _ _ I) (i_cur _ _ I) (i_objs _ _ I o x Hr Ex)) as (v & E & S).
    assert (Es : step w (Read o) = Ok (set_objs w (update_obj o (settled x (pos (w_heap w) x (w_cur w))) (w_objs w)))).
    { cbn [step]. rewrite Ex, E. reflexivity. }
    eexists _, v. split; [unfold read; rewrite Ex, E; reflexivity|]. cbn [fst]. split; [|split].
    + eexists. split; [reflexivity | apply update_keys].
    + apply (good_quiet cs old w _ g (Read o)); auto. split; congruence.
    + right. split; [now apply (i_reg_first _ _ I) | auto].
  - destruct (i_fresh _ _ I o x Hf Ex) as (c & u & v & Hm & ->).
    exists w, v. split.
    + unfold read. rewrite Ex. cbn. rewrite Nat.eqb_refl. cbn. rewrite update_same; [now destruct w | assumption | apply G].
    + split; [apply reading_refl|]. split; [assumption|]. left. eauto.
Qed.

Lemma draw_ok cs os : forall (w : world) (g : ghost), good cs [] w g -> (forall o, In o os -> assoc o (w_objs w) <> None) ->
  exists w' sc, draw os w = Ok (w', sc) /\ reading w w' /\ good cs [] w' g /\ map fst sc = os /\
    (forall o v, In (o, v) sc -> drawn w g o v).
Proof.
  induction os as [|o os IH]; intros w g G L; cbn [draw].
  - exists w, []. split; [reflexivity|]. split; [apply reading_refl|]. split; [assumption|]. split; [reflexivity|]. intros o v [].
  - assert (Lo : assoc o (w_objs w) <> None) by (apply L; now left).
    destruct (read_ok cs [] w g o G Lo) as (w1 & v & -> & R1 & G1 & D1).
    { destruct (gd_known _ _ _ _ G o Lo) as [?|[?|[]]]; auto. }
    cbn [bind fst snd]. destruct (IH w1 g G1) as (w' & sc & -> & R2 & G2 & K & D2).
    { destruct R1 as (objs & -> & Ko). intros o' Ho. cbn. apply (keys_assoc _ (w_objs w) o' Ko). apply L. now right. }
    cbn [bind fst snd]. eexists _, _. split; [reflexivity|]. split; [eapply reading_trans; eauto|]. split; [assumption|].
    split; [cbn; now rewrite K|]. intros o' v' [[= <- <-]|H]; [assumption|]. specialize (D2 o' v' H).
    destruct R1 as (objs & -> & Ko). exact D2.
Qed.

Lemma draw_cache cs (w : world) (g : ghost) : good cs [] w g ->
  exists w' sc, draw (map fst (w_objs w)) w = Ok (w', sc) /\ reading w w' /\ good cs [] w' g /\
    cache_ok w' g (w_cur w) sc.
Proof.
  intros G. destruct (draw_ok cs (map fst (w_objs w)) w g G) as (w' & sc & E & R & G' & K & D).
  { intros o Ho. now apply assoc_Some_iff. }
  exists w', sc. split; [assumption|]. split; [assumption|]. split; [assumption|]. split.
  - intros o v H. destruct R as (objs & -> & Ko). exact (D o v H).
  - intros o T _. rewrite K. apply (reading_tracked w w' o R) in T. apply assoc_Some_iff. apply T.
Qed.

(** A cached scene of the current timepoint depicts it. *)
Lemma cache_depicts cs old (w : world) (g : ghost) sc : good cs old w g -> cache_ok w g (w_cur w) sc -> depicts sc w.
Proof.
  intros G [C1 C2]. pose proof (gd_reach _ _ _ _ G) as R. pose proof (reachable_inv w g R) as I. split.
  - intros o H. apply (exists_now_born w g o R) in H as [T B]. auto.
  - intros o v Hv T. destruct (report_snapshot w g o I T) as (v' & E & Sn). destruct T as [Hr Hx].
    destruct (C1 o v Hv) as [[F _]|[_ C]]; [now apply (i_reg_first _ _ I) in Hr|].
    specialize (C Hr). rewrite E. congruence.
Qed.

Lemma good_add cs old (w : world) (g : ghost) t sc : good cs old w g -> In t (w_pins w) -> cache_ok w g t sc ->
  good ((t, sc) :: cs) old w g.
Proof.
  intros [G1 G2 G3 G4 G5] P C. constructor; auto.
  - intros t' sc' [[= <- <-]|H]; eauto.
  - intros t' sc' [[= <- <-]|H]; eauto.
Qed.

Lemma good_incl cs cs' old (w : world) (g : ghost) : good cs old w g -> incl cs' cs -> good cs' old w g.
Proof. intros [G1 G2 G3 G4 G5] H. constructor; eauto. Qed.
End WithStates.
