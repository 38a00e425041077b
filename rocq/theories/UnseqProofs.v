(** Proofs about the unsequenced loops. *)
From Coq Require Import List Arith Bool Lia Permutation.
From Verif Require Import HistModel HistSpec HistTreeProofs HistProofs HistNavProofs UnseqModel UnseqSpec.
Import ListNotations.

(** ** Interleaved calls *)
Lemma interleaved_In {X} (calls : list (list X)) l : interleaved calls l -> forall p, In p l <-> In p (concat calls).
Proof.
  induction 1 as [calls F|before x call after l _ IH]; intros p.
  - split; [intros []|]. intros I. apply in_concat in I. destruct I as (c & C & I). rewrite Forall_forall in F. now rewrite (F c C) in I.
  - specialize (IH p). rewrite concat_app in *. cbn in *. rewrite in_app_iff in *. cbn. rewrite IH. tauto.
Qed.
Lemma interleaved_filter {X} (f : X -> bool) (calls : list (list X)) l : interleaved calls l -> interleaved (map (filter f) calls) (filter f l).
Proof.
  induction 1 as [calls F|before x call after l _ IH].
  - constructor. apply Forall_map. eapply Forall_impl; [|exact F]. now intros c ->.
  - rewrite map_app in *. cbn in *. destruct (f x); [|exact IH]. now constructor.
Qed.
Lemma interleaved_drop {X} (calls : list (list X)) l : interleaved calls l -> forall a b, calls = a ++ b -> Forall (fun c => c = []) b -> interleaved a l.
Proof.
  induction 1 as [calls F|before x call after l _ IH]; intros a b E B.
  - subst calls. apply Forall_app in F. now constructor.
  - symmetry in E. apply app_eq_app in E. destruct E as (m & [[E1 E2]|[E1 E2]]).
    + destruct m as [|c m]; cbn in *.
      * subst b. inversion B. discriminate.
      * injection E2 as <- E2. subst a. constructor. apply (IH _ b); [|exact B]. rewrite E2, <- app_assoc. reflexivity.
    + subst b. apply Forall_app in B. destruct B as [_ B]. inversion B. discriminate.
Qed.

Section WithStates.
Context {V A : Type}.
Implicit Types (w : world V A) (g : ghost V) (x : orig V) (objs : list (oid * orig V)).

(** ** Objects *)
Lemma update_other o o' x x' objs : o <> o' -> update_obj o x (update_obj o' x' objs) = update_obj o' x' (update_obj o x objs).
Proof.
  intros N. unfold update_obj. rewrite !map_map. apply map_ext. intros [k y]. cbn.
  destruct (Nat.eqb_spec k o'), (Nat.eqb_spec k o); subst; cbn; try congruence; destruct (Nat.eqb_spec o o'), (Nat.eqb_spec o' o); subst; cbn; rewrite ?Nat.eqb_refl; try congruence;
    repeat match goal with |- context [?a =? ?b] => destruct (Nat.eqb_spec a b) end; congruence.
Qed.
Lemma update_twice o x x' objs : update_obj o x (update_obj o x' objs) = update_obj o x objs.
Proof. unfold update_obj. rewrite map_map. apply map_ext. intros [k y]. cbn. destruct (k =? o) eqn:E; cbn; now rewrite E. Qed.
Lemma assoc_same o x y objs : assoc o objs = Some y -> assoc o (update_obj o x objs) = Some x.
Proof.
  unfold update_obj. induction objs as [|[k z] l IH]; cbn; [discriminate|]. destruct (Nat.eqb_spec o k) as [->|N].
  - intros _. rewrite Nat.eqb_refl. cbn. now rewrite Nat.eqb_refl.
  - intros E. destruct (Nat.eqb_spec k o); [congruence|]. cbn. destruct (Nat.eqb_spec o k); [congruence|]. auto.
Qed.
Lemma assoc_other o o' x objs : o <> o' -> assoc o (update_obj o' x objs) = assoc o objs.
Proof.
  intros N. unfold update_obj. induction objs as [|[k z] l IH]; cbn; [reflexivity|]. destruct (Nat.eqb_spec k o') as [->|N']; cbn.
  - destruct (Nat.eqb_spec o o'); [congruence|exact IH].
  - now rewrite IH.
Qed.

Lemma on_object_comm o o' (f f' : orig V -> outcome (orig V)) objs : o <> o' -> (forall x, f x <> Abort) -> (forall x, f' x <> Abort) ->
  (do a <- on_object o f objs; on_object o' f' a) = (do a <- on_object o' f' objs; on_object o f a).
Proof.
  intros N F F'. assert (N' : o' <> o) by congruence. unfold on_object.
  destruct (assoc o objs) as [x|] eqn:E; destruct (assoc o' objs) as [x'|] eqn:E'; cbn; rewrite ?E, ?E'; cbn; try reflexivity.
  - specialize (F x). specialize (F' x'). destruct (f x) as [y| |] eqn:Y; destruct (f' x') as [y'| |] eqn:Y'; cbn; try congruence.
    + rewrite (assoc_other o' o), (assoc_other o o'), E, E' by assumption. cbn. rewrite Y, Y'. cbn. now rewrite update_other.
    + rewrite (assoc_other o' o), E' by assumption. cbn. now rewrite Y'.
    + rewrite (assoc_other o o'), E by assumption. cbn. now rewrite Y.
  - destruct (f x) as [y| |]; cbn; try reflexivity. now rewrite (assoc_other o' o), E' by assumption.
  - destruct (f' x') as [y| |]; cbn; try reflexivity. now rewrite (assoc_other o o'), E by assumption.
Qed.

Lemma scan_ends h t l : scan h t l <> Abort.
Proof. induction l as [|a l IH]; cbn; [discriminate|]. destruct (alive h a && alive h t); [|discriminate]. destruct (common_ancestor h a t true =? a); [discriminate|exact IH]. Qed.
Lemma jump_ends h x : actually_go h x <> Abort.
Proof.
  unfold actually_go. destruct (o_lazy x) as [t|]; [|discriminate]. destruct (t =? null); [discriminate|]. pose proof (scan_ends h t (rev (o_order x))) as S'.
  destruct (scan h t (rev (o_order x))) as [[k|]| |]; cbn; congruence.
Qed.

(** ** Parts *)
Definition target (p : part) : oid := match p with Jump o | Drop_states o | Drop_order o | Ask o _ | Die o => o end.
Definition kills (p : part) : bool := match p with Die _ => true | _ => false end.
Definition effect (h : heap) (ts : list tp) (p : part) : orig V -> outcome (orig V) :=
  match p with
  | Jump _ => actually_go h
  | Drop_states _ => fun x => Ok (drop_states ts x)
  | Drop_order _ => fun x => Ok (drop_order ts x)
  | Ask _ t => fun x => Ok (go t x)
  | Die _ => fun x => Ok x
  end.
Lemma effect_ends h ts p x : effect h ts p x <> Abort.
Proof. destruct p; cbn; try discriminate. apply jump_ends. Qed.
Lemma do_part_effect h ts p objs : kills p = false -> do_part h ts p objs = on_object (target p) (effect h ts p) objs.
Proof. destruct p; cbn; try reflexivity. discriminate. Qed.

Lemma bind_assoc {X Y Z} (m : outcome X) (f : X -> outcome Y) (k : Y -> outcome Z) : bind (bind m f) k = bind m (fun a => bind (f a) k).
Proof. now destruct m. Qed.

Lemma moved h ts p l r : kills p = false -> (forall q, In q l -> kills q = false /\ target q <> target p) -> forall objs,
  do_parts h ts (l ++ p :: r) objs = do_parts h ts (p :: l ++ r) objs.
Proof.
  intros K. induction l as [|q l IH]; intros Q objs; [reflexivity|]. cbn [app do_parts].
  destruct (Q q (or_introl eq_refl)) as [Kq T]. rewrite !do_part_effect by assumption.
  transitivity (do a <- (do b <- on_object (target q) (effect h ts q) objs; on_object (target p) (effect h ts p) b); do_parts h ts (l ++ r) a).
  - rewrite bind_assoc. destruct (on_object (target q) (effect h ts q) objs) as [b| |]; cbn [bind]; try reflexivity. rewrite IH by (intros; apply Q; now right). cbn [do_parts]. now rewrite do_part_effect.
  - rewrite on_object_comm by (first [congruence | apply effect_ends]). rewrite bind_assoc. destruct (on_object (target p) (effect h ts p) objs) as [b| |]; cbn [bind]; try reflexivity. now rewrite do_part_effect.
Qed.

Definition owned (o : oid) (call : list part) : Prop := forall p, In p call -> kills p = false /\ target p = o.

Lemma in_order h ts calls l : interleaved calls l -> forall owners, NoDup owners -> Forall2 owned owners calls -> forall objs,
  do_parts h ts l objs = do_parts h ts (concat calls) objs.
Proof.
  induction 1 as [calls F|before p call after l _ IH]; intros owners N O objs.
  - replace (concat calls) with (@nil part); [reflexivity|]. clear -F. induction F as [|c l -> _ IH]; [reflexivity|exact IH].
  - apply Forall2_app_inv_r in O. destruct O as (O1 & O2 & F1 & F2 & ->). inversion F2 as [|o c O3 l3 Oo F3]. subst.
    destruct (Oo p (or_introl eq_refl)) as [K T]. rewrite concat_app. cbn [concat app]. rewrite moved; [|exact K|].
    + cbn [do_parts]. destruct (do_part h ts p objs) as [b| |]; cbn [bind]; try reflexivity. rewrite (IH (O1 ++ o :: O3)); [now rewrite concat_app|exact N|].
      apply Forall2_app; [exact F1|]. constructor; [|exact F3]. intros q I. apply Oo. now right.
    + intros q I. apply in_concat in I. destruct I as (c & C & I). clear - F1 C I N T.
      assert (E : exists o', In o' O1 /\ owned o' c). { induction F1 as [|o' c' l l' W _ IH]; [destruct C|]. destruct C as [->|C]; [exists o'; split; [now left|exact W]|]. cbn in N. inversion N. destruct (IH ltac:(assumption) C) as (o2 & I2 & W2). exists o2. split; [now right|exact W2]. }
      destruct E as (o' & I' & W). destruct (W q I) as [Kq Tq]. split; [exact Kq|]. rewrite T, Tq. intros ->. apply NoDup_remove_2 in N. apply N, in_or_app. now left.
Qed.

(** ** Erasing *)
Lemma erase_parts h ts x : erase h ts x = (do a <- actually_go h x; Ok (drop_order ts (drop_states ts a))).
Proof. reflexivity. Qed.
Lemma one_erased h ts o r objs : do_parts h ts (erasing o ++ r) objs =
  match assoc o objs with None => do_parts h ts r objs | Some x => do x' <- erase h ts x; do_parts h ts r (update_obj o x' objs) end.
Proof.
  rewrite <- (app_nil_r (erasing o ++ r)) at 1. rewrite app_nil_r. unfold erasing. cbn [app do_parts do_part]. unfold on_object at 1. destruct (assoc o objs) as [x|] eqn:E; cbn [bind].
  - rewrite erase_parts. destruct (actually_go h x) as [a| |]; cbn [bind]; try reflexivity.
    unfold on_object at 1. rewrite (assoc_same _ _ _ _ E). cbn [bind]. rewrite update_twice. unfold on_object. rewrite (assoc_same _ _ _ _ E). cbn [bind]. now rewrite update_twice.
  - unfold on_object at 1. rewrite E. cbn [bind]. unfold on_object. now rewrite E.
Qed.
Lemma all_erased h ts regs : forall objs, do_parts h ts (concat (map erasing regs)) objs = erase_all h ts regs objs.
Proof.
  induction regs as [|o regs IH]; intros objs; [reflexivity|]. cbn [map concat]. rewrite one_erased. cbn [erase_all]. destruct (assoc o objs) as [x|]; [|apply IH].
  destruct (erase h ts x) as [x'| |]; cbn [bind]; [apply IH|reflexivity|reflexivity].
Qed.

(** ** Destroyed objects *)
Fixpoint deaths (l : list part) : list oid := match l with [] => [] | Die o :: r => o :: deaths r | _ :: r => deaths r end.
Lemma deaths_In o l : In o (deaths l) <-> In (Die o) l.
Proof.
  induction l as [|p l IH]; [reflexivity|]. destruct p; cbn; rewrite IH; try (split; [intros I; now right | intros [E|I]; [discriminate|exact I]]).
  split; (intros [E|I]; [left; congruence|now right]).
Qed.
Definition without (D : list oid) objs : list (oid * orig V) := filter (fun e => negb (mem (fst e) D)) objs.
Lemma mem_In_iff o (l l' : list oid) : (In o l <-> In o l') -> mem o l = mem o l'.
Proof. intros H. apply eq_true_iff_eq. unfold mem. rewrite !existsb_exists. split; intros (y & I & E); apply Nat.eqb_eq in E; subst y; exists o; (split; [tauto|apply Nat.eqb_refl]). Qed.
Lemma without_ext D D' objs : (forall o, In o D <-> In o D') -> without D objs = without D' objs.
Proof. intros H. apply filter_ext. intros [o y]. cbn. now rewrite (mem_In_iff o D D'). Qed.
Lemma without_update D o x objs : without D (update_obj o x objs) = if mem o D then without D objs else update_obj o x (without D objs).
Proof.
  unfold without, update_obj. induction objs as [|[k y] l IH]; cbn; [now destruct (mem o D)|]. destruct (Nat.eqb_spec k o) as [->|N]; cbn.
  - destruct (mem o D); cbn; [exact IH|]. rewrite Nat.eqb_refl. now rewrite IH.
  - destruct (mem k D); cbn; [exact IH|]. rewrite IH. destruct (mem o D); [reflexivity|]. cbn. destruct (Nat.eqb_spec k o); [congruence|reflexivity].
Qed.
Lemma without_assoc D o objs : assoc o (without D objs) = if mem o D then None else assoc o objs.
Proof.
  unfold without. induction objs as [|[k y] l IH]; cbn; [now destruct (mem o D)|]. destruct (mem k D) eqn:K; cbn; rewrite IH; destruct (Nat.eqb_spec o k) as [->|N]; try reflexivity; rewrite K; reflexivity.
Qed.

Lemma dies h ts l : forall D objs objs', do_parts h ts (filter (fun p => negb (kills p)) l) objs = Ok objs' ->
  do_parts h ts l (without D objs) = Ok (without (deaths l ++ D) objs').
Proof.
  induction l as [|p l IH]; intros D objs objs'; [intros [= <-]; reflexivity|]. cbn [filter]. destruct (kills p) eqn:K; cbn [negb].
  - destruct p as [ | | | |o]; try discriminate. intros E. cbn [do_parts do_part bind deaths app].
    replace (filter (fun e : nat * orig V => negb (fst e =? o)) (without D objs)) with (without (o :: D) objs).
    + rewrite (IH (o :: D) objs objs' E). f_equal. apply without_ext. intros k. cbn. rewrite !in_app_iff. cbn. tauto.
    + clear. unfold without. induction objs as [|[k y] r IHr]; [reflexivity|]. cbn [filter fst]. change (mem k (o :: D)) with ((k =? o) || mem k D).
      destruct (k =? o) eqn:Ek; destruct (mem k D) eqn:Em; cbn [orb negb filter fst]; rewrite ?Ek; cbn [negb]; rewrite IHr; reflexivity.
  - cbn [do_parts]. rewrite !do_part_effect by exact K. unfold on_object. rewrite without_assoc.
    assert (Dl : deaths (p :: l) = deaths l) by (destruct p; try reflexivity; discriminate). rewrite Dl.
    destruct (assoc (target p) objs) as [x|] eqn:E.
    + destruct (effect h ts p x) as [x'| |] eqn:X; cbn [bind]; try discriminate. intros R. pose proof (IH D _ _ R) as R'. rewrite without_update in R'. destruct (mem (target p) D); cbn [bind]; [exact R'|]. rewrite X. exact R'.
    + cbn [bind]. intros R. destruct (mem (target p) D); cbn [bind]; exact (IH D _ _ R).
Qed.

Lemma erased_while_dying h ts regs dying l objs objs' : NoDup regs -> erasing_order regs dying l -> erase_all h ts regs objs = Ok objs' ->
  do_parts h ts l objs = Ok (without dying objs').
Proof.
  intros N I E. assert (I' : interleaved (map erasing regs) (filter (fun p => negb (kills p)) l)).
  { apply (interleaved_drop _ _ (interleaved_filter (fun p => negb (kills p)) _ _ I) _ (map (fun _ => []) dying)).
    - rewrite map_app, !map_map. reflexivity.
    - apply Forall_map, Forall_forall. reflexivity. }
  assert (R : do_parts h ts (filter (fun p => negb (kills p)) l) objs = Ok objs').
  { rewrite (in_order h ts _ _ I' regs N), all_erased; [exact E|]. clear. induction regs as [|o r IH]; cbn; constructor; [|exact IH]. intros p [<-|[<-|[<-|[]]]]; (split; reflexivity). }
  apply (dies h ts l [] objs objs') in R. assert (W : forall o : list (oid * orig V), without [] o = o) by (induction o as [|a o IH]; [reflexivity|change (a :: without [] o = a :: o); f_equal; exact IH]). rewrite W in R. rewrite R. f_equal. rewrite app_nil_r. apply without_ext.
  intros o. rewrite deaths_In, (interleaved_In _ _ I). rewrite concat_app, in_app_iff. split.
  - intros [J|J]; apply in_concat in J; destruct J as (c & C & J); apply in_map_iff in C; destruct C as (k & <- & C); [destruct J as [J|[J|[J|[]]]]; discriminate|]. destruct J as [[= ->]|[]]. exact C.
  - intros J. right. apply in_concat. exists [Die o]. split; [apply in_map_iff; now exists o|now left].
Qed.

Lemma collected_any_order w g dying l : inv w g -> erasing_order (w_regs w) dying l -> collector_with l w = garbage_collector dying w.
Proof.
  intros I O. destruct (gc_ok w g I dying) as (w' & G & _). rewrite G. revert G. unfold garbage_collector, collector_with. destruct (forallb _ _); [|discriminate].
  destruct (erase_all (w_heap w) (gc_remove w) (w_regs w) (w_objs w)) as [objs| |] eqn:E; cbn [bind]; try discriminate. intros [= <-].
  rewrite (erased_while_dying _ _ _ _ _ _ _ (i_regs _ _ I) O E). reflexivity.
Qed.

(** ** Jumping *)
Definition keys objs : list oid := map fst objs.
Lemma asked h ts t regs : forall objs, NoDup regs -> NoDup (keys objs) ->
  do_parts h ts (concat (map (asking t) regs)) objs = Ok (map (fun e => if mem (fst e) regs then (fst e, go t (snd e)) else e) objs).
Proof.
  induction regs as [|o regs IH]; intros objs N K.
  - cbn. f_equal. symmetry. apply map_id.
  - cbn [map concat asking app do_parts do_part]. inversion N as [|? ? No N']. subst. unfold on_object. destruct (assoc o objs) as [x|] eqn:E; cbn [bind].
    + rewrite IH; [|exact N'|]. 2: { unfold keys, update_obj in *. rewrite map_map. erewrite map_ext; [exact K|]. intros [k y]. cbn. now destruct (k =? o). }
      f_equal. unfold update_obj. rewrite map_map. apply map_ext_in. intros [k y] J. cbn [fst snd]. change (mem k (o :: regs)) with ((k =? o) || mem k regs). destruct (Nat.eqb_spec k o) as [->|Nk]; cbn [fst snd orb]; [|reflexivity].
      assert (Mr : mem o regs = false). { destruct (mem o regs) eqn:M; [|reflexivity]. unfold mem in M. apply existsb_exists in M. destruct M as (z & Z & Ez). apply Nat.eqb_eq in Ez. now subst z. }
      rewrite Mr. f_equal. f_equal. clear - E J K. induction objs as [|[k z] l IH]; [destruct J|]. cbn in E, K. inversion K as [|? ? Nk Kl]. subst. destruct (Nat.eqb_spec o k) as [->|D].
      * injection E as <-. destruct J as [[= ->]|J]; [reflexivity|]. destruct Nk. now apply (in_map fst) in J.
      * destruct J as [[= -> ->]|J]; [congruence|]. auto.
    + rewrite IH by assumption. f_equal. apply map_ext_in. intros [k y] J. cbn [fst snd]. change (mem k (o :: regs)) with ((k =? o) || mem k regs). destruct (Nat.eqb_spec k o) as [->|Nk]; [|reflexivity].
      exfalso. clear - E J. induction objs as [|[k z] l IH]; [destruct J|]. cbn in E. destruct (Nat.eqb_spec o k) as [->|D]; [discriminate|]. destruct J as [[= -> ->]|J]; [congruence|auto].
Qed.

Lemma update_keys o x objs : keys (update_obj o x objs) = keys objs.
Proof. unfold keys, update_obj. rewrite map_map. apply map_ext. intros [k y]. cbn. now destruct (k =? o). Qed.
Lemma filter_keys f objs : NoDup (keys objs) -> NoDup (keys (filter f objs)).
Proof.
  unfold keys. induction objs as [|[k y] l IH]; cbn; [auto|]. intros N. inversion N as [|? ? Nk Nl]. subst. destruct (f (k, y)); cbn; [|auto]. constructor; [|auto]. intros I. apply Nk. apply in_map_iff in I. destruct I as (e & E & I). apply filter_In in I. apply in_map_iff. exists e. tauto.
Qed.
Lemma erase_all_keys h ts regs : forall objs objs', erase_all h ts regs objs = Ok objs' -> keys objs' = keys objs.
Proof.
  induction regs as [|o regs IH]; cbn; intros objs objs'; [intros [= ->]; reflexivity|]. destruct (assoc o objs) as [x|]; [|apply IH]. destruct (erase h ts x) as [y| |]; cbn [bind]; try discriminate. intros E. rewrite (IH _ _ E). apply update_keys.
Qed.
Definition apart w : Prop := NoDup (keys (w_objs w)).
Lemma gc_apart dying w w' : garbage_collector dying w = Ok w' -> apart w -> apart w'.
Proof.
  unfold garbage_collector. destruct (forallb _ _); [|discriminate]. destruct (erase_all _ _ _ _) as [objs| |] eqn:E; cbn [bind]; try discriminate. intros [= <-]. unfold apart. cbn. intros N. apply filter_keys. now rewrite (erase_all_keys _ _ _ _ _ E).
Qed.
Lemma stop_apart dying w w' : stop_browsing_user_history dying w = Ok w' -> apart w -> apart w'.
Proof. unfold stop_browsing_user_history. destruct (w_brow w) as [k|]; [|now intros [= <-]]. destruct (w_auto _); [apply (gc_apart dying (set_hist w (firstn (S k) (w_hist w)) None))|now intros [= <-]]. Qed.
Lemma go_apart t w r : go_without_remembering t w = Ok r -> apart w -> apart (fst r).
Proof.
  unfold go_without_remembering. destruct (t =? null); [now intros [= <-]|]. destruct (alive _ _); [|discriminate]. destruct (root_of _ _ =? _); [|now intros [= <-]]. intros [= <-]. unfold apart, keys. cbn. rewrite map_map. intros N. erewrite map_ext; [exact N|]. intros e. now destruct (mem (fst e) (w_regs w)).
Qed.
Lemma remember_apart w : apart w -> apart (remember_current_timepoint w).
Proof. unfold remember_current_timepoint. now destruct (_ =? _). Qed.
Lemma browse_apart k w w' : browse_to k w = Ok w' -> apart w -> apart w'.
Proof. unfold browse_to. match goal with |- context [go_without_remembering ?t ?v] => destruct (go_without_remembering t v) as [r| |] eqn:E end; cbn [bind]; try discriminate. intros [= <-] N. apply (go_apart _ _ _ E). exact N. Qed.
Lemma step_apart w g (x : op V A) w' : inv w g -> permitted w g x -> step w x = Ok w' -> apart w -> apart w'.
Proof.
  intros I P. destruct x as [a d|o c t v|o|o t v|o|n|n|t|t| | |t d|a|d|b|o|d]; cbn [step].
  - unfold make_next_timepoint. destruct (stop_browsing_user_history d w) as [w1| |] eqn:E; cbn [bind]; try discriminate. destruct (alive _ _); [|discriminate]. intros [= <-] N. exact (stop_apart _ _ _ E N).
  - intros [= <-]. cbn in P. destruct (i_made _ _ I o P) as [Fr _]. unfold apart, keys. cbn. rewrite map_app. cbn. intros N. apply NoDup_rev in N. rewrite <- (rev_involutive (map fst (w_objs w) ++ [o])). apply NoDup_rev. rewrite rev_app_distr. cbn. constructor; [|exact N].
    rewrite <- in_rev. intros J. clear - Fr J. induction (w_objs w) as [|[k y] l IH]; [destruct J|]. cbn in Fr, J. destruct (Nat.eqb_spec o k); [discriminate|]. destruct J as [->|J]; [congruence|auto].
  - unfold take_care_of. destruct (assoc o (w_objs w)) as [x|]; [|now intros [= <-]]. destruct (o_init x =? null); [now intros [= <-]|]. destruct (alive _ _); [|discriminate]. destruct (_ =? _); now intros [= <-].
  - destruct (assoc o (w_objs w)) as [x|]; [|discriminate]. intros [= <-] N. unfold apart. cbn. now rewrite update_keys.
  - destruct (assoc o (w_objs w)) as [x|]; [|discriminate]. destruct (get_current_state (w_heap w) x) as [r| |]; cbn [bind]; try discriminate. intros [= <-] N. unfold apart. cbn. now rewrite update_keys.
  - unfold undo. destruct (_ || _); [now intros [= <-]|]. destruct (w_brow w); apply browse_apart.
  - unfold redo. destruct (_ || _); [now intros [= <-]|]. destruct (w_brow w); [apply browse_apart|discriminate].
  - destruct (go_without_remembering t w) as [r| |] eqn:E; cbn [bind]; try discriminate. intros [= <-]. exact (go_apart _ _ _ E).
  - unfold go_and_remember. destruct (go_without_remembering t w) as [r| |] eqn:E; cbn [bind]; try discriminate. destruct (snd r); cbn [bind]; intros [= <-] N; [apply remember_apart|]; exact (go_apart _ _ _ E N).
  - intros [= <-]. apply remember_apart.
  - intros [= <-]. unfold pin_current_timepoint. now destruct (mem _ _).
  - unfold unpin. destruct (w_auto _); [apply (gc_apart d (set_pins w (filter (fun y : nat => negb (y =? t)) (w_pins w))))|now intros [= <-]].
  - intros [= <-]. unfold annotate_current_timepoint. now destruct (assoc _ _).
  - apply gc_apart.
  - now intros [= <-].
  - intros [= <-]. apply filter_keys.
  - unfold reset. intros E N. exact (gc_apart _ _ _ E N).
Qed.
Lemma reachable_apart w g : reachable w g -> apart w.
Proof. induction 1 as [r|w g x w' R IH P E _]; [constructor|]. exact (step_apart w g x w' (reachable_inv w g R) P E IH). Qed.

Lemma jumped_any_order w g t l : reachable w g -> asking_order t (w_regs w) l -> go_with l t w = go_without_remembering t w.
Proof.
  intros R O. unfold go_with, go_without_remembering. destruct (t =? null); [reflexivity|]. destruct (alive _ _); [|reflexivity]. destruct (_ =? _); [|reflexivity].
  pose proof (i_regs _ _ (reachable_inv w g R)) as N. rewrite (in_order _ _ _ _ O (w_regs w) N), asked; [reflexivity|exact N|exact (reachable_apart w g R)|].
  clear. induction (w_regs w) as [|o r IH]; cbn; constructor; [|exact IH]. intros p [<-|[]]. split; reflexivity.
Qed.

(** ** Whole histories *)
Lemma step_with_step w (x : op V A) : step_with garbage_collector go_without_remembering w x = step w x.
Proof. destruct x; reflexivity. Qed.

Lemma gc_ordered w dying l w' : NoDup (w_regs w) -> erasing_order (w_regs w) dying l -> garbage_collector dying w = Ok w' -> collector_with l w = Ok w'.
Proof.
  intros N O. unfold garbage_collector, collector_with. destruct (forallb _ _); [|discriminate].
  destruct (erase_all (w_heap w) (gc_remove w) (w_regs w) (w_objs w)) as [objs| |] eqn:E; cbn [bind]; try discriminate. intros [= <-].
  now rewrite (erased_while_dying _ _ _ _ _ _ _ N O E).
Qed.
Lemma go_ordered w t l : NoDup (w_regs w) -> apart w -> asking_order t (w_regs w) l -> go_with l t w = go_without_remembering t w.
Proof.
  intros N K O. unfold go_with, go_without_remembering. destruct (t =? null); [reflexivity|]. destruct (alive _ _); [|reflexivity]. destruct (_ =? _); [|reflexivity].
  rewrite (in_order _ _ _ _ O (w_regs w) N), asked; [reflexivity|exact N|exact K|].
  clear. induction (w_regs w) as [|o r IH]; cbn; constructor; [|exact IH]. intros p [<-|[]]. split; reflexivity.
Qed.
Section Any.
Context (erasings : list oid -> world V A -> list part) (askings : tp -> world V A -> list part).
Context (Oe : forall dying v, erasing_order (w_regs v) dying (erasings dying v)) (Oa : forall t v, asking_order t (w_regs v) (askings t v)).
Let gc := fun dying v => collector_with (erasings dying v) v.
Let jump := fun t v => go_with (askings t v) t v.
Lemma gc_any w dying w' : NoDup (w_regs w) -> garbage_collector dying w = Ok w' -> gc dying w = Ok w'.
Proof. intros N. apply gc_ordered; [exact N|apply Oe]. Qed.
Lemma jump_any w t : NoDup (w_regs w) -> apart w -> jump t w = go_without_remembering t w.
Proof. intros N K. apply go_ordered; [exact N|exact K|apply Oa]. Qed.
Lemma stop_any w dying w' : NoDup (w_regs w) -> stop_browsing_user_history dying w = Ok w' -> stop_browsing_with gc dying w = Ok w'.
Proof.
  intros N. unfold stop_browsing_user_history, stop_browsing_with. destruct (w_brow w) as [k|]; [|auto]. cbn zeta. destruct (w_auto _); [|auto].
  apply (gc_any (set_hist w (firstn (S k) (w_hist w)) None)). exact N.
Qed.
Lemma browse_any w k : NoDup (w_regs w) -> apart w -> browse_to_with jump k w = browse_to k w.
Proof. intros N K. unfold browse_to_with, browse_to. cbn zeta. rewrite jump_any; [reflexivity|exact N|exact K]. Qed.
Lemma step_any w (x : op V A) w' : NoDup (w_regs w) -> apart w -> step w x = Ok w' -> step_with gc jump w x = Ok w'.
Proof.
  intros N K. destruct x as [a d|o c t v|o|o t v|o|n|n|t|t| | |t d|a|d|b|o|d]; cbn [step step_with]; try exact (fun E => E).
  - unfold make_next_timepoint, make_next_timepoint_with. destruct (stop_browsing_user_history d w) as [w1| |] eqn:E; cbn [bind]; try discriminate. rewrite (stop_any _ _ _ N E). exact (fun E => E).
  - unfold undo, undo_with. destruct (_ || _); [exact (fun E => E)|]. cbn zeta. destruct (w_brow w); now rewrite browse_any.
  - unfold redo, redo_with. destruct (_ || _); [exact (fun E => E)|]. destruct (w_brow w); [now rewrite browse_any|exact (fun E => E)].
  - now rewrite jump_any.
  - unfold go_and_remember, go_and_remember_with. now rewrite jump_any.
  - unfold unpin, unpin_with. cbn zeta. destruct (w_auto _); [|exact (fun E => E)]. apply (gc_any (set_pins w (filter (fun y : nat => negb (y =? t)) (w_pins w)))). exact N.
  - now apply gc_any.
  - unfold reset, reset_with. apply gc_any. constructor.
Qed.
End Any.

Lemma may_step_step w g (x : op V A) r : reachable w g -> permitted w g x -> may_step w x r -> step w x = r.
Proof.
  intros R P (e & a & Oe & Oa & ->). destruct (step_inv w g x (reachable_inv w g R) P) as (w' & E & _). rewrite E. symmetry.
  apply step_any; [exact Oe|exact Oa|exact (i_regs _ _ (reachable_inv w g R))|exact (reachable_apart w g R)|exact E].
Qed.
Lemma in_sequence {X} (calls : list (list X)) : interleaved calls (concat calls).
Proof.
  induction calls as [|c r IH]; cbn; [constructor; constructor|]. induction c as [|x c IHc]; cbn.
  - clear - IH. remember (concat r) as l. clear Heql. induction IH as [calls F|before x call after l _ IH]; [now constructor; constructor|]. exact (interleaved_next ([] :: before) x call after l IH).
  - exact (interleaved_next [] x c r _ IHc).
Qed.
Lemma step_may w g (x : op V A) w' : reachable w g -> permitted w g x -> step w x = Ok w' -> may_step w x (Ok w').
Proof.
  intros R P E. exists (fun dying v => concat (map erasing (w_regs v) ++ map (fun o => [Die o]) dying)), (fun t v => concat (map (asking t) (w_regs v))).
  assert (Oe : forall dying (v : world V A), erasing_order (w_regs v) dying (concat (map erasing (w_regs v) ++ map (fun o => [Die o]) dying))) by (intros; apply in_sequence).
  assert (Oa : forall t (v : world V A), asking_order t (w_regs v) (concat (map (asking t) (w_regs v)))) by (intros; apply in_sequence).
  split; [exact Oe|]. split; [exact Oa|]. symmetry. apply step_any; [exact Oe|exact Oa|exact (i_regs _ _ (reachable_inv w g R))|exact (reachable_apart w g R)|exact E].
Qed.
Lemma reachable_same w g : reachable_unsequenced w g <-> reachable w g.
Proof.
  split; induction 1 as [r|w g x w' R IH P E B].
  - now constructor.
  - apply (reach_step w g x w' IH P); [exact (may_step_step w g x _ IH P E)|exact B].
  - now constructor.
  - apply (unsequenced_step w g x w' IH P); [|exact B]. exact (step_may w g x w' R P E).
Qed.
End WithStates.
