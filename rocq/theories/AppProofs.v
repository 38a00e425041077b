(** Lemmas behind the pipeline properties. *)
From Coq Require Import List Arith Bool Lia.
From Verif Require Import HistModel HistSpec HistTreeProofs HistProofs HistNavProofs HistMoreProofs AppModel AppSpec.
Import ListNotations.

Section WithStates.
Context {V : Type}.
Notation world := (world V Step).
Notation ghost := (ghost V).
Notation op := (op V Step).

(** The part of the invariant about the tree only. *)
Record tinv (w : world) : Prop := {
  t_wf : wf_heap (w_heap w);
  t_root : w_root w = root (w_heap w);
  t_cur : alive (w_heap w) (w_cur w) = true;
  t_pins : forall t, In t (w_pins w) -> alive (w_heap w) t = true;
  t_hist : forall t, In t (w_hist w) -> alive (w_heap w) t = true;
  t_hist_hd : exists l, w_hist w = w_root w :: l;
  t_brow : forall k, w_brow w = Some k -> S k < length (w_hist w);
  t_ann : forall t, In t (map fst (w_ann w)) -> alive (w_heap w) t = true
}.

Lemma inv_tinv (w : world) (g : ghost) : inv w g -> tinv w.
Proof. intros I. constructor; fromI I. Qed.

Definition strip (w : world) : world :=
  mkWorld (w_auto w) (w_heap w) (w_root w) (w_cur w) [] (w_pins w) (w_hist w) (w_brow w) (w_ann w) [].
Definition canon (w : world) : ghost :=
  mkGhost (S (list_max (map fst (w_heap w)))) (fun t => t) (ancestors_self (w_heap w))
          (fun _ _ => None) (fun _ => None) (fun _ => None) (fun _ => 0) [].

Lemma strip_inv (w : world) : tinv w -> inv (strip w) (canon w).
Proof.
  intros []. constructor; cbn; auto; try discriminate; try tauto.
  - intros t Ht. apply alive_In in Ht. apply Nat.lt_succ_r.
    pose proof (proj1 (list_max_le (map fst (w_heap w)) _) (le_n _)) as F. rewrite Forall_forall in F. now apply F.
  - intros t Ht. symmetry. apply map_id.
  - constructor.
Qed.

Lemma gc_strip dying (w w' : world) : garbage_collector dying w = Ok w' ->
  exists w2, garbage_collector dying (strip w) = Ok w2 /\ strip w' = strip w2.
Proof.
  unfold garbage_collector. cbn [w_pins w_hist w_cur w_heap strip w_regs w_objs].
  destruct (forallb _ _); [|discriminate]. destruct (erase_all _ _ _ _); cbn; try discriminate.
  intros [= <-]. eexists. split; reflexivity.
Qed.

Definition anc (w : world) : list tp := ancestors_self (w_heap w) (w_cur w).

Lemma strip_eq (w w' : world) : strip w = strip w' ->
  w_auto w = w_auto w' /\ w_heap w = w_heap w' /\ w_root w = w_root w' /\ w_cur w = w_cur w' /\ w_pins w = w_pins w' /\
  w_hist w = w_hist w' /\ w_brow w = w_brow w' /\ w_ann w = w_ann w'.
Proof. unfold strip. intros [=]. repeat split; assumption. Qed.

Lemma tinv_strip (w w' : world) : strip w = strip w' -> tinv w -> tinv w'.
Proof.
  intros E I. apply strip_eq in E as (_ & E1 & E2 & E3 & E4 & E5 & E6 & E7). destruct I.
  constructor; rewrite <- ?E1, <- ?E2, <- ?E3, <- ?E4, <- ?E5, <- ?E6, <- ?E7; assumption.
Qed.

Lemma gc_tree dying (w w' : world) : tinv w -> garbage_collector dying w = Ok w' ->
  tinv w' /\ w_cur w' = w_cur w /\ anc w' = anc w /\
  (forall t, In t (anc w) -> get_annotation t w' = get_annotation t w).
Proof.
  intros T E. destruct (gc_strip dying w w' E) as (w2 & E2 & Es). pose proof (strip_inv w T) as I.
  destruct (gc_ok _ _ I dying) as (w3 & E3 & H). rewrite E2 in E3. injection E3 as <-.
  apply strip_eq in Es as Es'. destruct Es' as (_ & F1 & F2 & F3 & F4 & F5 & F6 & F7).
  destruct H as (Hh & _ & _ & Hc & _ & _ & _ & Ha & Hr & _ & _ & _ & _ & Hb).
  assert (B : births_alive w2 (canon w)) by (intros o [Ho _]; apply Hr in Ho; destruct Ho).
  pose proof (inv_tinv _ _ (Hb B)) as T2.
  assert (Kc : mem (w_cur w) (gc_keep (strip w)) = true).
  { apply keep_In. exists (w_cur w). split; [cbn; rewrite !in_app_iff; cbn; auto|].
    cbn. apply anc_self_In. apply T. }
  assert (Ea : anc w' = anc w).
  { unfold anc. rewrite F1, F3, Hc, Hh. cbn [w_cur strip]. exact (new_anc _ _ I _ Kc). }
  split; [|split; [|split]].
  - eapply tinv_strip; [symmetry; exact Es | exact T2].
  - rewrite F3, Hc. reflexivity.
  - exact Ea.
  - intros t Ht. unfold get_annotation. rewrite F7, Ha, (assoc_filter (fun k => mem k (gc_keep (strip w)))).
    assert (K : mem t (gc_keep (strip w)) = true).
    { apply keep_In. exists (w_cur w). split; [cbn; rewrite !in_app_iff; cbn; auto|]. exact Ht. }
    now rewrite K.
Qed.

Lemma get_ann_dead (w : world) t : tinv w -> alive (w_heap w) t = false -> get_annotation t w = None.
Proof.
  intros T Hd. unfold get_annotation. destruct (assoc t (w_ann w)) eqn:E; [|reflexivity].
  apply assoc_In in E. apply (in_map fst) in E. apply T in E. cbn in E. congruence.
Qed.

Lemma stop_tree dying (w w' : world) : tinv w -> stop_browsing_user_history dying w = Ok w' ->
  tinv w' /\ w_cur w' = w_cur w /\ anc w' = anc w /\
  (forall t, In t (anc w) -> get_annotation t w' = get_annotation t w).
Proof.
  intros T. unfold stop_browsing_user_history. destruct (w_brow w) as [k|] eqn:B; [|intros [= <-]; auto].
  assert (T1 : tinv (set_hist w (firstn (S k) (w_hist w)) None)).
  { destruct T. constructor; cbn; auto; try discriminate.
    - intros t Ht. apply t_hist0. rewrite <- (firstn_skipn (S k)). apply in_or_app. now left.
    - destruct t_hist_hd0 as [l ->]. cbn. eauto. }
  cbn [w_auto set_hist]. destruct (w_auto w).
  - intros E. exact (gc_tree dying _ w' T1 E).
  - intros [= <-]. auto.
Qed.

(** One operation of the board. *)
Lemma domain_step (w w' : world) x : tinv w -> domain_ops w [x] -> step w x = Ok w' ->
  tinv w' /\ exists news, anc w' = news ++ anc w /\
  (forall t, In t news -> get_annotation t w' = None) /\
  (forall t, In t (anc w) -> get_annotation t w' = get_annotation t w) /\
  (news <> [] <-> exists a d, x = NextTimepoint a d).
Proof.
  intros T [L _] E.
  assert (Same : strip w' = strip w -> (~ exists a d, x = NextTimepoint a d) ->
    tinv w' /\ exists news, anc w' = news ++ anc w /\ (forall t, In t news -> get_annotation t w' = None) /\
    (forall t, In t (anc w) -> get_annotation t w' = get_annotation t w) /\
    (news <> [] <-> exists a d, x = NextTimepoint a d)).
  { intros Es Hn. split; [eapply tinv_strip; [symmetry; exact Es | exact T]|].
    apply strip_eq in Es as (_ & F1 & _ & F3 & _ & _ & _ & F7).
    exists []. unfold anc, get_annotation. rewrite F1, F3, F7. cbn. intuition. }
  destruct x as [a dying|p c u v|p|p u v|p|n|n|u|u| | |u dying|a|dying|b|p|dying]; cbn [step] in E; try (destruct L; fail).
  - destruct L as [Ha Hf]. unfold make_next_timepoint in E.
    destruct (stop_browsing_user_history dying w) as [w1| |] eqn:St; try discriminate. cbn in E.
    destruct (stop_tree dying w w1 T St) as (T1 & C1 & A1 & N1). specialize (Hf w1 eq_refl).
    pose proof (t_cur _ T1) as Hc. rewrite Hc in E. injection E as <-.
    assert (Ea : ancestors_self (add_child (w_heap w1) (w_cur w1) a) a = a :: ancestors_self (w_heap w1) (w_cur w1))
      by (unfold add_child; cbn; now rewrite Nat.eqb_refl).
    split.
    { destruct T1. constructor; cbn; auto.
      - unfold add_child. apply wf_cons; assumption.
      - change (w_root w1 = root ((a, w_cur w1) :: w_heap w1)). rewrite root_cons; assumption.
      - unfold add_child. rewrite alive_cons, Nat.eqb_refl. reflexivity.
      - intros t Ht. unfold add_child. rewrite alive_cons, (t_pins0 t Ht), orb_true_r. reflexivity.
      - intros t Ht. unfold add_child. rewrite alive_cons, (t_hist0 t Ht), orb_true_r. reflexivity.
      - intros t Ht. unfold add_child. rewrite alive_cons, (t_ann0 t Ht), orb_true_r. reflexivity. }
    exists [a]. unfold anc at 1. cbn [w_heap w_cur set_cur set_heap]. rewrite Ea. fold (anc w1). rewrite A1.
    split; [reflexivity|]. split; [|split].
    + intros t [<-|[]]. exact (get_ann_dead w1 a T1 Hf).
    + intros t Ht. unfold get_annotation. cbn. now apply N1.
    + split; [intros _; eauto | discriminate].
  - apply Same; [injection E as <-; reflexivity | intros (? & ? & [=])].
  - apply Same; [|intros (? & ? & [=])]. unfold take_care_of in E. destruct (assoc p (w_objs w)); [|now injection E as <-].
    destruct (_ =? _); [now injection E as <-|]. destruct (alive _ _); [|discriminate].
    destruct (_ =? _); now injection E as <-.
  - apply Same; [|intros (? & ? & [=])]. destruct (assoc p (w_objs w)); [|discriminate]. now injection E as <-.
  - apply Same; [|intros (? & ? & [=])]. destruct (assoc p (w_objs w)); [|discriminate].
    destruct (get_current_state _ _); try discriminate. now injection E as <-.
  - apply Same; [injection E as <-; reflexivity | intros (? & ? & [=])].
Qed.

Lemma domain_perform xs : forall (w w' : world), tinv w -> domain_ops w xs -> perform xs w = Ok w' ->
  tinv w' /\ exists news, anc w' = news ++ anc w /\
  (forall t, In t news -> get_annotation t w' = None) /\
  (forall t, In t (anc w) -> get_annotation t w' = get_annotation t w) /\
  (news <> [] <-> creates xs).
Proof.
  induction xs as [|x xs IH]; intros w w' T L E.
  - injection E as <-. split; [assumption|]. exists []. cbn. intuition. destruct H as (a & d & []).
  - cbn [perform] in E. destruct (step w x) as [w1| |] eqn:S; try discriminate. cbn [bind] in E.
    cbn [domain_ops] in L. destruct L as [Lx Lr].
    destruct (domain_step w w1 x T) as (T1 & n1 & A1 & U1 & K1 & C1); [cbn; auto | assumption |].
    destruct (IH w1 w' T1 (Lr w1 S) E) as (T2 & n2 & A2 & U2 & K2 & C2).
    split; [assumption|]. exists (n2 ++ n1). split; [now rewrite A2, A1, app_assoc|]. split; [|split].
    + intros t Ht. apply in_app_or in Ht as [Ht|Ht]; [now apply U2|]. rewrite K2; [now apply U1|].
      rewrite A1. apply in_or_app. now left.
    + intros t Ht. rewrite K2; [now apply K1|]. rewrite A1. apply in_or_app. now right.
    + unfold creates. split.
      * intros Hn. destruct n1 as [|y n1].
        -- rewrite app_nil_r in Hn. apply C2 in Hn as (a & d & H). exists a, d. now right.
        -- destruct (proj1 C1) as (a & d & ->); [discriminate|]. exists a, d. now left.
      * intros (a & d & [->|H]).
        -- assert (n1 <> []) by (apply C1; eauto). destruct n1; [easy|]. destruct n2; discriminate.
        -- assert (n2 <> []) by (apply C2; unfold creates; eauto). destruct n2; [easy|discriminate].
Qed.

Lemma anc_cons (w : world) : tinv w -> exists l, anc w = w_cur w :: l.
Proof. intros T. apply anc_alive_cons. apply T. Qed.

Lemma anc_nodup (w : world) : tinv w -> NoDup (anc w).
Proof. intros T. apply anc_NoDup. apply T. Qed.

Lemma annotate_tree s (w : world) : tinv w ->
  let w' := annotate_current_timepoint s w in
  tinv w' /\ w_cur w' = w_cur w /\ anc w' = anc w /\
  forall t, get_annotation t w' =
    match get_annotation t w with Some a => Some a | None => if t =? w_cur w then Some s else None end.
Proof.
  intros T. unfold annotate_current_timepoint. cbv zeta. destruct (assoc (w_cur w) (w_ann w)) as [a|] eqn:E.
  - repeat split; try apply T. intros t. unfold get_annotation. destruct (assoc t (w_ann w)) eqn:Et; [reflexivity|].
    destruct (Nat.eqb_spec t (w_cur w)); [congruence | reflexivity].
  - repeat split; try apply T.
    + cbn. intros t Ht. rewrite map_app in Ht. apply in_app_or in Ht as [Ht|[<-|[]]]; [exact (t_ann _ T t Ht) | exact (t_cur _ T)].
    + intros t. unfold get_annotation. cbn. rewrite assoc_app. destruct (assoc t (w_ann w)); [reflexivity|]. reflexivity.
Qed.

Lemma remember_tree (w : world) : tinv w ->
  let w' := remember_current_timepoint w in
  tinv w' /\ w_cur w' = w_cur w /\ anc w' = anc w /\ forall t, get_annotation t w' = get_annotation t w.
Proof.
  intros T. unfold remember_current_timepoint. cbv zeta. destruct (_ =? _); [auto|].
  split; [|auto]. destruct T. constructor; cbn; auto.
  - intros t Ht. apply in_app_or in Ht as [Ht|[<-|[]]]; auto.
  - destruct t_hist_hd0 as [l ->]. cbn. eauto.
  - intros k Hk. rewrite app_length. specialize (t_brow0 k Hk). lia.
Qed.

(** * Runs *)
Definition seen (tr : list (Step * tp)) (t : tp) : option Step :=
  match find (fun e => snd e =? t) tr with Some e => Some (fst e) | None => None end.

Lemma seen_app tr tr' t : seen (tr ++ tr') t = match seen tr t with Some a => Some a | None => seen tr' t end.
Proof.
  unfold seen. induction tr as [|e tr IH]; cbn; [reflexivity|]. destruct (snd e =? t); [reflexivity | exact IH].
Qed.

Lemma seen_In tr t s : seen tr t = Some s -> In (s, t) tr.
Proof.
  unfold seen. destruct (find _ tr) as [[a b]|] eqn:E; [|discriminate]. cbn. intros [= <-].
  apply find_some in E as [H Hb]. cbn in Hb. apply Nat.eqb_eq in Hb. now subst.
Qed.

Lemma seen_none tr t : seen tr t = None <-> forall s, ~ In (s, t) tr.
Proof.
  unfold seen. split.
  - intros H s Hs. destruct (find _ tr) eqn:E; [discriminate|].
    apply (find_none _ _ E) in Hs. cbn in Hs. now rewrite Nat.eqb_refl in Hs.
  - intros H. destruct (find _ tr) as [[a b]|] eqn:E; [|reflexivity].
    apply find_some in E as [Hi Hb]. cbn in Hb. apply Nat.eqb_eq in Hb. subst. now apply H in Hi.
Qed.

Definition expected (w0 : world) (tr : list (Step * tp)) (t : tp) : option Step :=
  match (if mem t (anc w0) then get_annotation t w0 else None) with
  | Some a => Some a
  | None => seen tr t
  end.

Record during (w0 w : world) (tr : list (Step * tp)) : Prop := {
  d_inv : tinv w;
  d_path : exists news, anc w = news ++ anc w0;
  d_ann : forall t, In t (anc w) -> get_annotation t w = expected w0 tr t;
  d_tr : forall s t, In (s, t) tr -> In t (anc w) /\ (In t (anc w0) -> t = w_cur w0)
}.

Lemma during_start (w : world) : tinv w -> during w w [].
Proof.
  intros T. constructor; auto.
  - now exists [].
  - intros t Ht. unfold expected. rewrite (proj2 (mem_In _ _) Ht). destruct (get_annotation t w); reflexivity.
  - intros s t [].
Qed.

Lemma handle_during board steps s (w0 w : world) tr w' tr' : lawful board -> tinv w0 ->
  during w0 w tr -> handle board steps s (w, tr) = Ok (w', tr') ->
  during w0 w' tr' /\
  (existsb (Step_eqb s) steps = false -> w' = w /\ tr' = tr) /\
  (existsb (Step_eqb s) steps = true ->
   tr' = tr ++ [(s, w_cur w)] /\
   exists news, anc w' = news ++ anc w /\
     (news <> [] <-> creates (board s (annotate_current_timepoint s w)))).
Proof.
  intros Lb T0 D E. unfold handle in E. destruct (existsb (Step_eqb s) steps) eqn:Hs; [|injection E as <- <-; split; [assumption | split; [auto | discriminate]]].
  destruct (annotate_tree s w (d_inv _ _ _ D)) as (T1 & C1 & A1 & N1). cbv zeta in *.
  set (w1 := annotate_current_timepoint s w) in *.
  destruct (perform (board s w1) w1) as [w2| |] eqn:P; try discriminate. cbn [bind] in E. injection E as <- <-.
  destruct (domain_perform _ w1 w2 T1 (Lb s w1) P) as (T2 & news & A2 & U2 & K2 & Cr).
  destruct (d_path _ _ _ D) as [n0 En0].
  split; [|split; [discriminate | intros _; split; [reflexivity | exists news; rewrite A2, A1; split; [reflexivity | exact Cr]]]].
  assert (ND : NoDup (anc w2)) by now apply anc_nodup.
  assert (Cw : In (w_cur w) (anc w)) by (destruct (anc_cons w (d_inv _ _ _ D)) as [l ->]; now left).
  constructor; auto.
  - exists (news ++ n0). rewrite A2, A1, En0. now rewrite app_assoc.
  - intros t Ht. rewrite A2, A1 in Ht. apply in_app_or in Ht as [Ht|Ht].
    + rewrite (U2 t Ht). assert (Hn : ~ In t (anc w)).
      { rewrite A2, A1 in ND. intros H. revert ND. clear -Ht H. induction news as [|a l IH]; [destruct Ht|].
        cbn. inversion 1; subst. destruct Ht as [->|Ht]; [|auto]. apply H2. apply in_or_app. auto. }
      unfold expected. rewrite (proj2 (mem_nIn _ _)).
      * symmetry. apply seen_none. intros a Ha. apply in_app_or in Ha as [Ha|[[= <- <-]|[]]]; [|contradiction].
        apply Hn. eapply (d_tr _ _ _ D); eauto.
      * intros H. apply Hn. rewrite En0. apply in_or_app. now right.
    + rewrite K2 by (rewrite A1; exact Ht). rewrite N1, (d_ann _ _ _ D t Ht). unfold expected.
      destruct (if mem t (anc w0) then get_annotation t w0 else None); [reflexivity|].
      rewrite seen_app. destruct (seen tr t); [reflexivity|]. unfold seen. cbn.
      rewrite Nat.eqb_sym. now destruct (w_cur w =? t).
  - intros a t Ha. apply in_app_or in Ha as [Ha|[[= <- <-]|[]]].
    + destruct (d_tr _ _ _ D a t Ha) as [H1 H2]. split; [|assumption]. rewrite A2, A1. apply in_or_app. now right.
    + split; [rewrite A2, A1; apply in_or_app; now right|]. intros H.
      destruct (anc_cons w (d_inv _ _ _ D)) as [l El]. rewrite En0 in El. destruct n0 as [|y n0].
      * destruct (anc_cons w0 T0) as [l0 El0]. cbn in El. rewrite El in El0. congruence.
      * cbn in El. injection El as -> El. exfalso.
        pose proof (anc_nodup w (d_inv _ _ _ D)) as N. rewrite En0 in N. cbn in N. inversion N; subst.
        apply H2. apply in_or_app. now right.
Qed.

Lemma handle_all_during board steps hs : forall (w0 w : world) tr w' tr', lawful board -> tinv w0 ->
  during w0 w tr -> handle_all board steps hs (w, tr) = Ok (w', tr') ->
  during w0 w' tr' /\ map fst tr' = map fst tr ++ filter (fun s => existsb (Step_eqb s) steps) hs.
Proof.
  induction hs as [|s hs IH]; intros w0 w tr w' tr' Lb T0 D E.
  - injection E as <- <-. cbn. rewrite app_nil_r. auto.
  - cbn [handle_all] in E. destruct (handle board steps s (w, tr)) as [[w1 tr1]| |] eqn:H; try discriminate.
    cbn [bind] in E. destruct (handle_during board steps s w0 w tr w1 tr1 Lb T0 D H) as (D1 & Hf & Ht).
    destruct (IH w0 w1 tr1 w' tr' Lb T0 D1 E) as (D2 & Em). split; [assumption|]. rewrite Em. cbn [filter].
    destruct (existsb (Step_eqb s) steps).
    + destruct (Ht eq_refl) as (-> & _). rewrite map_app, <- app_assoc. reflexivity.
    + destruct (Hf eq_refl) as (-> & ->). reflexivity.
Qed.

Lemma during_remember (w0 w : world) tr : during w0 w tr -> during w0 (remember_current_timepoint w) tr.
Proof.
  intros D. destruct (remember_tree w (d_inv _ _ _ D)) as (T & C & A & N). cbv zeta in *. destruct D as [Di Dp Da Dt].
  constructor; auto; rewrite ?A; auto. intros t Ht. rewrite N. auto.
Qed.

Lemma run_during board steps (w w' : world) tr : lawful board -> tinv w -> run board steps w = Ok (w', tr) ->
  during w w' tr /\ map fst tr = filter (fun s => existsb (Step_eqb s) steps) handled.
Proof.
  intros Lb T E. unfold run in E. destruct (handle_all board steps handled (w, [])) as [[w1 tr1]| |] eqn:H; try discriminate.
  cbn in E. injection E as <- <-.
  destruct (handle_all_during board steps handled w w [] w1 tr1 Lb T (during_start w T) H) as (D & Em).
  split; [now apply during_remember | exact Em].
Qed.

Lemma handled_nodup : NoDup handled.
Proof. unfold handled. repeat constructor; cbn; intuition discriminate. Qed.

Lemma run_trace_nodup board steps (w w' : world) tr : lawful board -> tinv w -> run board steps w = Ok (w', tr) ->
  NoDup (map fst tr).
Proof.
  intros Lb T E. destruct (run_during board steps w w' tr Lb T E) as [_ ->]. apply NoDup_filter, handled_nodup.
Qed.

Lemma nodup_fst_unique (tr : list (Step * tp)) s t t' : NoDup (map fst tr) -> In (s, t) tr -> In (s, t') tr -> t = t'.
Proof.
  induction tr as [|[a b] tr IH]; cbn; [tauto|]. inversion 1 as [|x l Hn Hd]; subst.
  intros [[= -> ->]|H1] [[= ->]|H2]; auto.
  - exfalso. apply Hn. now apply (in_map fst) in H2.
  - exfalso. subst. apply Hn. now apply (in_map fst) in H1.
Qed.

(** * Searching and going back *)
Lemma find_that p (w : world) : find_first_ancestor_with_annotation_that p false w =
  match find (fun t => match get_annotation t w with Some a => p a | None => false end) (tl (anc w)) with
  | Some t => t | None => null end.
Proof. reflexivity. Qed.

Lemma go_ok (w : world) t : tinv w -> In t (anc w) -> exists w', go_without_remembering t w = Ok (w', true) /\
  w_cur w' = t /\ strip w' = set_cur (strip w) t.
Proof.
  intros T Ht. assert (Al : alive (w_heap w) t = true) by (eapply anc_incl; eauto).
  unfold go_without_remembering.
  assert (t <> null).
  { intros ->. rewrite wf_not_null in Al by apply T. discriminate. }
  rewrite (proj2 (Nat.eqb_neq _ _) H), Al, root_of_alive, (t_root _ T), Nat.eqb_refl by (exact (t_wf _ T) || assumption).
  eexists. split; [reflexivity|]. split; reflexivity.
Qed.

Lemma find_first_here (p : nat -> bool) l1 t l2 : (forall x, In x l1 -> p x = false) -> p t = true ->
  find p (l1 ++ t :: l2) = Some t.
Proof.
  induction l1 as [|a l1 IH]; cbn; intros H Ht; [now rewrite Ht|].
  rewrite (H a) by auto. apply IH; auto.
Qed.

Lemma go_before_start board steps (w w' : world) tr s t : lawful board -> tinv w ->
  run board steps w = Ok (w', tr) -> In (s, t) tr ->
  (forall s', In (s', t) tr -> s' = s) ->
  (t = w_cur w -> get_annotation t w = None \/ get_annotation t w = Some s) ->
  w_cur w' <> t ->
  exists w'', go_before s w' = Ok w'' /\ w_cur w'' = t.
Proof.
  intros Lb T E Hin Hu Hc Hm. destruct (run_during board steps w w' tr Lb T E) as [D _].
  pose proof (run_trace_nodup board steps w w' tr Lb T E) as ND.
  destruct (d_tr _ _ _ D s t Hin) as [Ht Hc'].
  assert (At : get_annotation t w' = Some s).
  { rewrite (d_ann _ _ _ D t Ht). unfold expected.
    assert (S : seen tr t = Some s).
    { destruct (seen tr t) as [a|] eqn:Es; [apply seen_In in Es; now rewrite (Hu a Es)|].
      apply seen_none with (s := s) in Es. contradiction. }
    destruct (mem t (anc w)) eqn:Em; [|assumption]. apply mem_In in Em.
    destruct (Hc (Hc' Em)) as [-> | ->]; [assumption | reflexivity]. }
  destruct (anc_cons w' (d_inv _ _ _ D)) as [l El]. pose proof Ht as Ht'. rewrite El in Ht. destruct Ht as [Ht|Ht]; [congruence|].
  apply in_split in Ht as (l1 & l2 & ->).
  assert (Fd : find_first_ancestor_with_annotation_that (fun a => Step_eqb a s) false w' = t).
  { rewrite find_that, El. cbn [tl]. rewrite (find_first_here _ l1 t l2); [reflexivity| |].
    - intros x Hx. assert (Ix : In x (anc w')) by (rewrite El; right; apply in_or_app; now left).
      rewrite (d_ann _ _ _ D x Ix).
      (* x is newer than t, hence created by this run *)
      assert (Hx0 : ~ In x (anc w)).
      { intros H0. destruct (d_path _ _ _ D) as [news En].
        assert (Ht0 : In t (anc w)).
        { rewrite El in En.
          assert (G : forall (a b c d : list nat) x t, NoDup (a ++ t :: b) -> a ++ t :: b = c ++ d -> In x a -> In x d -> In t d).
          { clear. induction a as [|y a IH]; intros b c d x t N Eq Ia Id; [destruct Ia|].
            destruct c as [|z c]; [cbn in Eq; subst d; right; apply in_or_app; right; now left|].
            cbn in Eq. injection Eq as <- Eq. cbn in N. inversion N; subst.
            destruct Ia as [->|Ia]; [|eapply IH; eauto].
            exfalso. apply H1. rewrite Eq. apply in_or_app. now right. }
          apply (G (w_cur w' :: l1) l2 news (anc w) x t); auto.
          - rewrite <- app_comm_cons, <- El. apply anc_nodup. apply D.
          - now right. }
        assert (tw : t = w_cur w) by auto. subst t.
        destruct (anc_cons w T) as [m Em].
        rewrite El, Em in En. pose proof (anc_nodup w' (d_inv _ _ _ D)) as N. rewrite El, app_comm_cons in N.
        rewrite app_comm_cons in En.
        assert (G : forall (a b c d : list nat) t, NoDup (a ++ t :: b) -> a ++ t :: b = c ++ t :: d -> a = c /\ b = d).
        { clear. induction a as [|y a IH]; intros b [|z c] d t N Eq; cbn in *.
          - injection Eq. auto.
          - injection Eq as <- Eq. inversion N; subst. exfalso. apply H1. apply in_or_app. right. now left.
          - injection Eq as -> Eq. inversion N; subst. exfalso. apply H1. apply in_or_app. right. now left.
          - injection Eq as <- Eq. inversion N; subst. destruct (IH b c d t H2 Eq) as [-> ->]. auto. }
        destruct (G _ _ _ _ _ N En) as [_ El2]. subst l2.
        rewrite Em in H0. destruct H0 as [H0|H0].
        - subst x. rewrite app_comm_cons in El. rewrite El in Ix.
          cbn in N. inversion N as [|? ? Nn Nd]. clear -Nd Hx. apply NoDup_remove_2 in Nd. apply Nd. apply in_or_app. now left.
        - cbn in N. inversion N as [|? ? Nn Nd]. clear -Nd Hx H0. induction l1 as [|y l1 IH]; [destruct Hx|].
          cbn in Nd. inversion Nd as [|? ? Nn' Nd']; subst. destruct Hx as [->|Hx]; [|auto].
          apply Nn'. apply in_or_app. right. now right. }
      unfold expected. rewrite (proj2 (mem_nIn _ _) Hx0). destruct (seen tr x) as [a|] eqn:Es; [|reflexivity].
      apply seen_In in Es. unfold Step_eqb. destruct (Step_eq_dec a s) as [->|]; [|reflexivity].
      exfalso. assert (x = t) by (eapply nodup_fst_unique; eauto). subst x.
      pose proof (anc_nodup w' (d_inv _ _ _ D)) as N. rewrite El in N. inversion N; subst.
      apply NoDup_remove_2 in H2. apply H2. apply in_or_app. now left.
    - rewrite At. unfold Step_eqb. now destruct (Step_eq_dec s s). }
  unfold go_before. rewrite Fd. destruct (go_ok w' t (d_inv _ _ _ D) Ht') as (w2 & -> & C & _).
  exists w2. split; [reflexivity | exact C].
Qed.

Lemma go_before_shadowed board steps (w w' : world) tr1 tr2 tr3 s s' t : lawful board -> tinv w ->
  run board steps w = Ok (w', tr1 ++ (s', t) :: tr2 ++ (s, t) :: tr3) ->
  (forall u, ~ annotated_above w u s) ->
  go_before s w' = Ok w'.
Proof.
  intros Lb T E Ha. set (tr := tr1 ++ (s', t) :: tr2 ++ (s, t) :: tr3) in *.
  destruct (run_during board steps w w' tr Lb T E) as [D _].
  pose proof (run_trace_nodup board steps w w' tr Lb T E) as ND.
  unfold go_before. rewrite find_that. destruct (find _ (tl (anc w'))) as [x|] eqn:F.
  - exfalso. apply find_some in F as [Hx Hp].
    assert (Ix : In x (anc w')) by (destruct (anc w'); [destruct Hx | now right]).
    rewrite (d_ann _ _ _ D x Ix) in Hp. unfold expected in Hp.
    assert (HA : forall a, (if mem x (anc w) then get_annotation x w else None) = Some a -> Step_eqb a s = false).
    { intros a Ea. destruct (mem x (anc w)) eqn:M; [|discriminate]. apply mem_In in M.
      unfold Step_eqb. destruct (Step_eq_dec a s) as [->|]; [|reflexivity]. exfalso. apply (Ha x). split; [|assumption].
      apply reaches_anc; [apply T | exact M]. }
    destruct (if mem x (anc w) then get_annotation x w else None) as [a|]; [rewrite HA in Hp; congruence|].
    destruct (seen tr x) as [a|] eqn:Es; [|discriminate]. unfold Step_eqb in Hp.
    destruct (Step_eq_dec a s) as [->|]; [|discriminate].
    assert (x = t).
    { apply seen_In in Es. eapply nodup_fst_unique; [exact ND | exact Es |]. unfold tr.
      apply in_or_app. right. right. apply in_or_app. right. now left. }
    subst x. unfold tr in Es. rewrite seen_app in Es.
    assert (Sn : forall a b l, NoDup (map fst (a ++ (b : list (Step * tp)))) -> seen a l = Some s -> In s (map fst b) -> False).
    { clear. intros a b l N Sa Hb. apply seen_In in Sa. apply (in_map fst) in Sa. cbn in Sa.
      rewrite map_app in N. induction (map fst a) as [|y ya IH]; [destruct Sa|]. cbn in N. inversion N; subst.
      destruct Sa as [->|Sa]; [apply H1, in_or_app; now right | auto]. }
    destruct (seen tr1 t) as [b|] eqn:S1.
    + injection Es as ->. eapply Sn; [exact ND | exact S1 |]. rewrite map_cons, map_app. right. apply in_or_app. right. now left.
    + unfold seen in Es. cbn in Es. rewrite Nat.eqb_refl in Es. cbn in Es. injection Es as ->.
      unfold tr in ND. rewrite map_app, map_cons, map_app in ND. cbn [fst map] in ND. apply NoDup_remove_2 in ND.
      apply ND. rewrite !in_app_iff. cbn. auto.
  - cbn. reflexivity.
Qed.

(** * Step by step *)
Lemma find_none_iff (p : nat -> bool) l : (forall x, In x l -> p x = false) -> find p l = None.
Proof. induction l as [|a l IH]; cbn; intros H; [reflexivity|]. rewrite (H a) by auto. apply IH. auto. Qed.

Lemma found_eq b (w : world) : tinv w ->
  annotation_found b w =
  match find (fun t => match get_annotation t w with Some _ => true | None => false end) (if b then anc w else tl (anc w)) with
  | Some t => get_annotation t w
  | None => None
  end.
Proof.
  intros T. unfold annotation_found.
  assert (Fe : find_first_ancestor_with_annotation b w =
    match find (fun t => match get_annotation t w with Some _ => true | None => false end) (if b then anc w else tl (anc w)) with
    | Some t => t | None => null end).
  { unfold find_first_ancestor_with_annotation, find_first_ancestor_with_annotation_that, ancestors, get_annotation, anc.
    reflexivity. }
  rewrite Fe. destruct (find _ _) as [t|]; [reflexivity|]. apply get_ann_dead; [assumption|]. apply wf_not_null, T.
Qed.

Lemma run_one board s (w w' : world) tr : lawful board -> tinv w -> run board [s] w = Ok (w', tr) ->
  tinv w' /\ tr = [(s, w_cur w)] /\
  exists news, anc w' = news ++ anc w /\ (news <> [] <-> creates (board s (annotate_current_timepoint s w))) /\
  (forall t, In t (anc w') -> get_annotation t w' =
     if mem t (anc w) then
       match get_annotation t w with Some a => Some a | None => if t =? w_cur w then Some s else None end
     else None).
Proof.
  intros Lb T E. destruct (run_during board [s] w w' tr Lb T E) as [D Em].
  assert (Tr : tr = [(s, w_cur w)] /\ exists news, anc w' = news ++ anc w /\ (news <> [] <-> creates (board s (annotate_current_timepoint s w)))).
  { unfold run in E. destruct (handle_all board [s] handled (w, [])) as [[w1 tr1]| |] eqn:H; try discriminate.
    cbn in E. injection E as <- <-.
    assert (G : forall hs (wa : world) wb trb, tinv wa -> NoDup hs -> In s hs ->
               handle_all board [s] hs (wa, []) = Ok (wb, trb) ->
               handle board [s] s (wa, []) = Ok (wb, trb)).
    { clear -Lb. assert (Id : forall hs (wa : world) tra r, ~ In s hs -> handle_all board [s] hs (wa, tra) = Ok r -> r = (wa, tra)).
      { induction hs as [|h hs IH]; cbn; intros wa tra r Hn; [now intros [= <-]|].
        unfold Step_eqb at 1. destruct (Step_eq_dec h s) as [->|]; [tauto|]. cbn. apply IH. tauto. }
      induction hs as [|h hs IH]; intros wa wb trb Ta N Hs; [destruct Hs|]. cbn [handle_all].
      inversion N as [|? ? Nn Nd]; subst. destruct (Step_eq_dec h s) as [->|Hne].
      - destruct (handle board [s] s (wa, [])) as [[wc trc]| |] eqn:Hd; try discriminate. cbn [bind].
        intros Ec. apply Id in Ec; [|assumption]. now rewrite Ec.
      - destruct Hs as [->|Hs]; [congruence|]. unfold handle at 1. cbn [existsb]. unfold Step_eqb at 1.
        destruct (Step_eq_dec h s); [congruence|]. cbn [orb bind]. now apply IH. }
    apply G in H; [|assumption | exact handled_nodup | destruct s; cbn; tauto].
    destruct (handle_during board [s] s w w [] w1 tr1 Lb T (during_start w T) H) as (_ & _ & Ht).
    assert (Hx : existsb (Step_eqb s) [s] = true) by (cbn; unfold Step_eqb; now destruct (Step_eq_dec s s)).
    destruct (Ht Hx) as (-> & news & En & Cr). split; [reflexivity|]. exists news.
    destruct (remember_tree w1) as (_ & _ & A & _).
    { destruct (handle_during board [s] s w w [] w1 _ Lb T (during_start w T) H) as (D1 & _). apply D1. }
    cbv zeta in A. rewrite A. auto. }
  destruct Tr as (-> & news & En & Cr). split; [apply D|]. split; [reflexivity|]. exists news. split; [assumption|].
  split; [assumption|]. intros t Ht. rewrite (d_ann _ _ _ D t Ht). unfold expected, seen. cbn.
  destruct (mem t (anc w)) eqn:M.
  - destruct (get_annotation t w); [reflexivity|]. rewrite Nat.eqb_sym. now destruct (t =? w_cur w).
  - destruct (Nat.eqb_spec (w_cur w) t) as [<-|]; [|reflexivity]. exfalso. apply mem_nIn in M. apply M.
    destruct (anc_cons w T) as [l ->]. now left.
Qed.

(** The situation after [k] productive steps. *)
Lemma filter_nil {X} (f : X -> bool) l : filter f l = [] <-> forall x, In x l -> f x = false.
Proof.
  induction l as [|a l IH]; cbn; [tauto|]. destruct (f a) eqn:E.
  - split; [discriminate|]. intros H. rewrite H in E by auto. discriminate.
  - rewrite IH. split; [intros H x [<-|Hx]; auto | auto].
Qed.

Definition step_no (k : nat) : option Step := match k with 0 => None | S j => nth_error handled j end.

Lemma run_productive board s (w w' : world) tr : lawful board -> (forall s w, creates (board s w)) -> tinv w ->
  get_annotation (w_cur w) w = None ->
  run board [s] w = Ok (w', tr) ->
  tinv w' /\ tr = [(s, w_cur w)] /\ get_annotation (w_cur w') w' = None /\
  find_first_ancestor_with_annotation false w' = w_cur w /\ In (w_cur w) (anc w') /\
  annotation_found false w' = Some s /\ get_current_step w' = Some s.
Proof.
  intros Lb Cr T N E. destruct (run_one board s w w' tr Lb T E) as (T' & Et & news & En & Hn & An).
  assert (Nn : news <> []) by (apply Hn, Cr). split; [assumption|]. split; [assumption|].
  pose proof (anc_nodup w' T') as ND.
  assert (Hnew : forall t, In t news -> get_annotation t w' = None).
  { intros t Ht. assert (In t (anc w')) by (rewrite En; apply in_or_app; now left). rewrite An by assumption.
    rewrite (proj2 (mem_nIn _ _)); [reflexivity|]. intros H2. rewrite En in ND.
    clear -ND Ht H2. induction news as [|a l IH]; [destruct Ht|]. cbn in ND. inversion ND; subst.
    destruct Ht as [->|Ht]; [apply H1, in_or_app; now right | auto]. }
  destruct (anc_cons w T) as [l El].
  assert (Hc : In (w_cur w) (anc w')) by (rewrite En, El; apply in_or_app; right; now left).
  assert (Ac : get_annotation (w_cur w) w' = Some s).
  { rewrite An by assumption. rewrite (proj2 (mem_In _ _)) by (rewrite El; now left). now rewrite N, Nat.eqb_refl. }
  destruct (anc_cons w' T') as [l' El']. destruct news as [|c news]; [congruence|].
  assert (Ec : w_cur w' = c) by (rewrite En in El'; cbn in El'; congruence).
  assert (Ft : find (fun t => match get_annotation t w' with Some _ => true | None => false end) (tl (anc w')) = Some (w_cur w)).
  { rewrite En, El. cbn [tl app]. apply find_first_here; [|now rewrite Ac].
    intros x Hx. rewrite Hnew by now right. reflexivity. }
  split; [rewrite Ec; apply Hnew; now left|]. split; [|split; [assumption|]].
  - unfold find_first_ancestor_with_annotation. rewrite find_that. unfold get_annotation in *. rewrite Ft. reflexivity.
  - split.
    + rewrite found_eq by assumption. cbv beta iota. rewrite Ft. exact Ac.
    + unfold get_current_step. rewrite found_eq by assumption. cbv beta iota.
      assert (Ft2 : find (fun t => match get_annotation t w' with Some _ => true | None => false end) (anc w') = Some (w_cur w)).
      { rewrite En, El. apply find_first_here; [|now rewrite Ac]. intros x Hx. now rewrite Hnew. }
      rewrite Ft2. exact Ac.
Qed.

Lemma next_handled k : k < 15 -> match step_no k with Some a => next a | None => Some ADJUST_EDGE_TO_MATERIAL end = nth_error handled k
  /\ (k <> 0 -> step_no k <> None).
Proof.
  intros H. do 15 (destruct k as [|k]; [split; [reflexivity | discriminate || congruence]|]). lia.
Qed.

Definition is_ann (w : world) (t : tp) : bool := match get_annotation t w with Some _ => true | None => false end.

Record after (k : nat) (w : world) (tr : list (Step * tp)) : Prop := {
  a_inv : tinv w;
  a_cur : get_annotation (w_cur w) w = None;
  a_tr : map fst tr = firstn k handled;
  a_found : annotation_found false w = step_no k;
  a_step : get_current_step w = step_no k;
  a_all : filter (is_ann w) (anc w) = rev (map snd tr);
  a_back : forall s t tr', tr = tr' ++ [(s, t)] ->
             find_first_ancestor_with_annotation false w = t /\ In t (anc w)
}.

Lemma after_start (w : world) : tinv w -> (forall t a, ~ annotated_above w t a) -> after 0 w [].
Proof.
  intros T H.
  assert (Hn : forall t, In t (anc w) -> get_annotation t w = None).
  { intros t Ht. destruct (get_annotation t w) as [a|] eqn:E; [|reflexivity]. exfalso. apply (H t a). split; [|assumption].
    apply reaches_anc; [apply T | exact Ht]. }
  destruct (anc_cons w T) as [l El]. constructor; auto.
  - apply Hn. rewrite El. now left.
  - rewrite found_eq by assumption. cbv beta iota. rewrite find_none_iff; [reflexivity|].
    intros x Hx. rewrite Hn; [reflexivity|]. rewrite El in *. now right.
  - unfold get_current_step. rewrite found_eq by assumption. cbv beta iota. rewrite find_none_iff; [reflexivity|].
    intros x Hx. now rewrite Hn.
  - cbn. clear El. induction (anc w) as [|x m IH]; [reflexivity|]. cbn. unfold is_ann at 1. rewrite Hn by now left.
    apply IH. intros t Ht. apply Hn. now right.
  - intros s t [|? ?]; discriminate.
Qed.

Lemma after_next board k (w w' : world) tr tr1 : lawful board -> (forall s w, creates (board s w)) ->
  after k w tr -> k < 15 -> run_next_step board w = Ok (w', tr1) -> after (S k) w' (tr ++ tr1).
Proof.
  intros Lb Cr A Hk E. unfold run_next_step in E. rewrite (a_found _ _ _ A) in E.
  destruct (next_handled k Hk) as [Hn Hs].
  assert (exists s, nth_error handled k = Some s /\ run board [s] w = Ok (w', tr1)) as (s & Ns & R).
  { destruct (nth_error handled k) as [s|] eqn:N.
    - exists s. split; [reflexivity|]. destruct (step_no k); [rewrite Hn in E; exact E | injection Hn as <-; exact E].
    - apply nth_error_None in N. cbn in N. lia. }
  destruct (run_productive board s w w' tr1 Lb Cr (a_inv _ _ _ A) (a_cur _ _ _ A) R) as (T' & -> & N' & F & I & G & C).
  destruct (run_one board s w w' _ Lb (a_inv _ _ _ A) R) as (_ & _ & news & En & _ & An).
  constructor; auto.
  - rewrite map_app, (a_tr _ _ _ A). cbn [map fst]. clear -Ns. revert Ns. generalize handled. revert k.
    induction k as [|k IH]; intros [|h l]; cbn; try discriminate.
    + now intros [= ->].
    + intros Ns. cbn. f_equal. now apply IH.
  - cbn. rewrite Ns. exact G.
  - cbn. rewrite Ns. exact C.
  - rewrite map_app, rev_app_distr. cbn [map snd rev app]. rewrite <- (a_all _ _ _ A).
    pose proof (anc_nodup w' T') as ND. rewrite En in *. destruct (anc_cons w (a_inv _ _ _ A)) as [l El].
    assert (Nw : forall t, In t news -> ~ In t (anc w)).
    { intros t Ht H2. clear -ND Ht H2. induction news as [|a m IH]; [destruct Ht|]. cbn in ND. inversion ND; subst.
      destruct Ht as [->|Ht]; [apply H1, in_or_app; now right | auto]. }
    rewrite filter_app, (proj2 (filter_nil (is_ann w') news)).
    + cbn [app]. rewrite El in *. cbn [filter].
      assert (E1 : is_ann w' (w_cur w) = true).
      { unfold is_ann. rewrite An by (apply in_or_app; right; now left). rewrite (proj2 (mem_In _ _)) by now left.
        rewrite (a_cur _ _ _ A), Nat.eqb_refl. reflexivity. }
      assert (E2 : is_ann w (w_cur w) = false) by (unfold is_ann; now rewrite (a_cur _ _ _ A)).
      rewrite E1, E2. f_equal. apply filter_ext_in. intros t Ht. unfold is_ann.
      rewrite An by (apply in_or_app; right; now right). rewrite (proj2 (mem_In _ _)) by now right.
      destruct (Nat.eqb_spec t (w_cur w)) as [->|]; [|now destruct (get_annotation t w)].
      exfalso. pose proof (anc_nodup w (a_inv _ _ _ A)) as N. rewrite El in N. inversion N; contradiction.
    + intros t Ht. unfold is_ann. rewrite An by (apply in_or_app; now left).
      now rewrite (proj2 (mem_nIn _ _) (Nw t Ht)).
  - intros s' t tr' Eq. apply app_inj_tail in Eq as [_ [= <- <-]]. auto.
Qed.

Lemma after_end board (w w' : world) tr tr1 : after 15 w tr -> run_next_step board w = Ok (w', tr1) -> w' = w /\ tr1 = [].
Proof.
  intros A E. unfold run_next_step in E. rewrite (a_found _ _ _ A) in E. cbn in E. now injection E as <- <-.
Qed.

Lemma next_steps_after board k : forall (w w' : world) tr, lawful board -> (forall s w, creates (board s w)) ->
  tinv w -> (forall t a, ~ annotated_above w t a) -> next_steps board k w = Ok (w', tr) ->
  after (Nat.min k 15) w' tr.
Proof.
  induction k as [|k IH]; intros w w' tr Lb Cr T H E.
  - injection E as <- <-. now apply after_start.
  - cbn [next_steps] in E. destruct (next_steps board k w) as [[w1 tr1]| |] eqn:E1; try discriminate. cbn [bind fst snd] in E.
    destruct (run_next_step board w1) as [[w2 tr2]| |] eqn:E2; try discriminate. cbn in E. injection E as <- <-.
    specialize (IH w w1 tr1 Lb Cr T H E1). destruct (Nat.ltb_spec k 15) as [Hk|Hk].
    + rewrite Nat.min_l in * by lia. eapply after_next; eauto.
    + rewrite (Nat.min_r (S k)) by lia. rewrite Nat.min_r in IH by lia.
      destruct (after_end board w1 w2 tr1 tr2 IH E2) as (-> & ->). now rewrite app_nil_r.
Qed.

(** A step that creates no timepoint is run again and again. *)
Lemma idle_next board s (w w' : world) tr : lawful board -> (forall w, ~ creates (board s w)) -> tinv w ->
  match annotation_found false w with Some a => next a | None => Some ADJUST_EDGE_TO_MATERIAL end = Some s ->
  run_next_step board w = Ok (w', tr) ->
  tinv w' /\ tr = [(s, w_cur w)] /\ w_cur w' = w_cur w /\
  match annotation_found false w' with Some a => next a | None => Some ADJUST_EDGE_TO_MATERIAL end = Some s.
Proof.
  intros Lb Id T Hn E.
  assert (R : run board [s] w = Ok (w', tr)).
  { unfold run_next_step in E. destruct (annotation_found false w); [rewrite Hn in E; exact E | injection Hn as <-; exact E]. }
  destruct (run_one board s w w' tr Lb T R) as (T' & Et & news & En & Hc & An).
  assert (news = []) as -> by (destruct news; [reflexivity | exfalso; eapply Id, Hc; discriminate]). cbn in En.
  destruct (anc_cons w T) as [l El]. destruct (anc_cons w' T') as [l' El'].
  assert (Ec : w_cur w' = w_cur w) by (rewrite En, El in El'; congruence).
  split; [assumption|]. split; [assumption|]. split; [assumption|].
  assert (Ef : annotation_found false w' = annotation_found false w); [|now rewrite Ef].
  rewrite !found_eq by assumption. cbv beta iota. rewrite En, El. cbn [tl].
  assert (Hl : forall t, In t l -> get_annotation t w' = get_annotation t w).
  { intros t Ht. assert (Hi : In t (anc w)) by (rewrite El; now right). rewrite An by now rewrite En.
    rewrite (proj2 (mem_In _ _) Hi). destruct (get_annotation t w); [reflexivity|].
    destruct (Nat.eqb_spec t (w_cur w)) as [->|]; [|reflexivity]. exfalso.
    pose proof (anc_nodup w T) as N. rewrite El in N. inversion N; contradiction. }
  clear -Hl. induction l as [|x l IH]; [reflexivity|]. cbn. rewrite (Hl x) by now left.
  destruct (get_annotation x w) eqn:E; [now rewrite Hl, E by now left|]. apply IH. intros; apply Hl. now right.
Qed.

Lemma idle_livelock board s k : forall (w w' : world) tr, lawful board -> (forall w, ~ creates (board s w)) -> tinv w ->
  match annotation_found false w with Some a => next a | None => Some ADJUST_EDGE_TO_MATERIAL end = Some s ->
  next_steps board k w = Ok (w', tr) ->
  tinv w' /\ tr = repeat (s, w_cur w) k /\ w_cur w' = w_cur w /\
  match annotation_found false w' with Some a => next a | None => Some ADJUST_EDGE_TO_MATERIAL end = Some s.
Proof.
  induction k as [|k IH]; intros w w' tr Lb Id T Hn E.
  - injection E as <- <-. auto.
  - cbn [next_steps] in E. destruct (next_steps board k w) as [[w1 tr1]| |] eqn:E1; try discriminate. cbn [bind fst snd] in E.
    destruct (run_next_step board w1) as [[w2 tr2]| |] eqn:E2; try discriminate. cbn in E. injection E as <- <-.
    destruct (IH w w1 tr1 Lb Id T Hn E1) as (T1 & Et & Ec & Hn1).
    destruct (idle_next board s w1 w2 tr2 Lb Id T1 Hn1 E2) as (T2 & -> & Ec2 & Hn2).
    split; [assumption|]. split; [|split; [congruence | assumption]].
    rewrite Et, Ec. cbn. symmetry. apply repeat_cons.
Qed.

Lemma go_remember_ok (w : world) t : tinv w -> In t (anc w) ->
  exists w', go_and_remember t w = Ok (w', true) /\ w_cur w' = t.
Proof.
  intros T Ht. unfold go_and_remember. destruct (go_ok w t T Ht) as (w1 & -> & C & _). cbn.
  eexists. split; [reflexivity|]. unfold remember_current_timepoint. destruct (_ =? _); exact C.
Qed.

(** Going back several times. *)
Definition behind (w : world) (ts : list tp) : Prop := tinv w /\ filter (is_ann w) (tl (anc w)) = ts.

Lemma find_filter {X} (f : X -> bool) l x r : filter f l = x :: r -> exists p q, l = p ++ x :: q /\ find f l = Some x /\ filter f q = r.
Proof.
  induction l as [|a l IH]; cbn; [discriminate|]. destruct (f a) eqn:E.
  - intros [= -> <-]. exists [], l. auto.
  - intros H. destruct (IH H) as (p & q & -> & F & G). exists (a :: p), q. auto.
Qed.

Lemma previous_behind (w : world) t ts : behind w (t :: ts) ->
  exists w', go_before_previous_step w = Ok w' /\ w_cur w' = t /\ behind w' ts.
Proof.
  intros [T F]. destruct (find_filter _ _ _ _ F) as (p & q & E & Fd & Fq).
  destruct (anc_cons w T) as [l El]. rewrite El in *. cbn [tl] in *. subst l.
  assert (Ht : In t (anc w)) by (rewrite El; right; apply in_or_app; right; now left).
  unfold go_before_previous_step.
  assert (Ff : find_first_ancestor_with_annotation false w = t).
  { unfold find_first_ancestor_with_annotation. rewrite find_that, El. cbn [tl]. unfold is_ann in Fd. now rewrite Fd. }
  rewrite Ff. unfold go_and_remember. destruct (go_ok w t T Ht) as (w1 & -> & C & St). cbn [bind fst snd].
  eexists. split; [reflexivity|].
  apply (f_equal strip) in St. change (strip (strip w1)) with (strip w1) in St.
  apply strip_eq in St. cbn in St. destruct St as (_ & F1 & F2 & F3 & F4 & F5 & F6 & F7).
  assert (T1 : tinv w1).
  { assert (Al : alive (w_heap w) t = true) by (eapply anc_incl; eauto).
    destruct T. constructor; rewrite ?F1, ?F2, ?F3, ?F4, ?F5, ?F6, ?F7; assumption. }
  destruct (remember_tree w1 T1) as (T2 & C2 & A2 & N2). cbv zeta in *. split; [congruence|]. split; [assumption|].
  assert (A1 : anc w1 = t :: q).
  { unfold anc. rewrite F1, F3. destruct (anc_suffix (w_heap w) (t_wf _ T) (w_cur w) t Ht) as [p' Ep].
    unfold anc in El. rewrite El in Ep.
    destruct (anc_alive_cons (w_heap w) t) as [m Em]; [eapply anc_incl; eauto|]. rewrite Em in *.
    assert (G : forall (a b c d : list nat) t, NoDup (a ++ t :: b) -> a ++ t :: b = c ++ t :: d -> b = d).
    { clear. induction a as [|y a IH]; intros b [|z c] d t N Eq; cbn in *.
      - now injection Eq.
      - injection Eq as <- Eq. inversion N; subst. exfalso. apply H1. apply in_or_app. right. now left.
      - injection Eq as -> Eq. inversion N; subst. exfalso. apply H1. apply in_or_app. right. now left.
      - injection Eq as <- Eq. inversion N; subst. eapply IH; eauto. }
    f_equal. symmetry. apply (G (w_cur w :: p) q p' m t); [|exact Ep].
    pose proof (anc_nodup w T) as N. unfold anc in N. rewrite El in N. exact N. }
  rewrite A2, A1. cbn [tl]. rewrite <- Fq. apply filter_ext. intros x. unfold is_ann. rewrite N2. unfold get_annotation. now rewrite F7.
Qed.

Lemma previous_steps_behind j : forall (w : world) ts, behind w ts -> j < length ts ->
  exists w', previous_steps (S j) w = Ok w' /\ nth_error ts j = Some (w_cur w') /\ behind w' (skipn (S j) ts).
Proof.
  induction j as [|j IH]; intros w ts B Hj.
  - destruct ts as [|t ts]; [cbn in Hj; lia|]. destruct (previous_behind w t ts B) as (w' & E & C & B').
    exists w'. cbn. rewrite E, C. auto.
  - destruct (IH w ts B) as (w1 & E1 & _ & B1); [lia|].
    destruct (skipn (S j) ts) as [|t r] eqn:Es.
    { apply (f_equal (@length _)) in Es. rewrite skipn_length in Es. cbn in Es. lia. }
    destruct (previous_behind w1 t r B1) as (w2 & E2 & C2 & B2). exists w2.
    split; [cbn [previous_steps] in *; rewrite E1; cbn [bind]; exact E2|].
    assert (G : forall (k : nat) (l : list nat) t r, skipn k l = t :: r -> nth_error l k = Some t /\ skipn (S k) l = r).
    { clear. induction k as [|k IH]; intros [|a l] t r; cbn; try discriminate.
      - intros [= -> ->]. auto.
      - intros H. apply IH in H. exact H. }
    destruct (G _ _ _ _ Es) as [Gn Gs]. rewrite C2, Gs. auto.
Qed.

Lemma after_behind k (w : world) tr : after k w tr -> behind w (rev (map snd tr)).
Proof.
  intros A. split; [apply (a_inv _ _ _ A)|]. rewrite <- (a_all _ _ _ A). destruct (anc_cons w (a_inv _ _ _ A)) as [l ->].
  cbn. unfold is_ann at 2. now rewrite (a_cur _ _ _ A).
Qed.

End WithStates.
