(** The calls of SyncModel.v in closed form. *)
From Coq Require Import List Arith Bool Lia.
From Verif Require Import GeomModel DisplayModel SyncModel SyncSpec.
Import ListNotations.

(** ** Lists *)

Lemma is_in_spec : forall e l, is_in e l = true <-> In e l.
Proof.
  intros e l. unfold is_in. rewrite existsb_exists. split; [intros (x & I & E); apply Nat.eqb_eq in E; now subst|]. intros I. exists e. split; [exact I|apply Nat.eqb_refl].
Qed.
Lemma is_in_no : forall e l, is_in e l = false <-> ~ In e l.
Proof. intros e l. rewrite <- is_in_spec. now destruct (is_in e l). Qed.
Lemma in_without : forall x e l, In x (without e l) <-> In x l /\ x <> e.
Proof. intros x e l. unfold without. rewrite filter_In, Bool.negb_true_iff, Nat.eqb_neq. reflexivity. Qed.
Lemma nodup_without : forall e l, NoDup l -> NoDup (without e l).
Proof. intros e l. apply NoDup_filter. Qed.
Lemma nodup_snoc : forall e (l : list nat), NoDup l -> ~ In e l -> NoDup (l ++ [e]).
Proof.
  intros e l. induction 1 as [|x r N H IH]; cbn; intros I; [constructor; [easy|constructor]|].
  constructor; [rewrite in_app_iff; cbn; intuition|]. apply IH. intuition.
Qed.

(** Those that can be, once each, in order. *)
Fixpoint gather (ok : nat -> bool) (l acc : list nat) : list nat :=
  match l with
  | [] => acc
  | e :: r => gather ok r (if ok e && negb (is_in e acc) then acc ++ [e] else acc)
  end.
Lemma in_gather : forall ok l acc e, In e (gather ok l acc) <-> In e acc \/ (In e l /\ ok e = true).
Proof.
  intros ok l. induction l as [|x r IH]; intros acc e; cbn; [intuition|]. rewrite IH.
  destruct (ok x) eqn:O; cbn; [destruct (is_in x acc) eqn:I; cbn|].
  - apply is_in_spec in I. intuition (subst; intuition).
  - rewrite in_app_iff. cbn. intuition (subst; intuition).
  - intuition (subst; intuition congruence).
Qed.
Lemma nodup_gather : forall ok l acc, NoDup acc -> NoDup (gather ok l acc).
Proof.
  intros ok l. induction l as [|x r IH]; intros acc H; cbn; [exact H|]. apply IH. destruct (ok x); [|exact H]. cbn. destruct (is_in x acc) eqn:I; [exact H|]. apply nodup_snoc; [exact H|]. now apply is_in_no.
Qed.

(** ** Closed forms *)

Section With.
Context (w : items).

Definition seen (st : sync) (p : Plane) (e : nat) : bool := in_scene w p e && sy_visible st p e.
Definition push (p : Plane) (st : sync) : sync :=
  if on_plane (sy_slock st) p then st else set_scene p (gather (seen st p) (sy_graph st) []) st.
Definition pushed (st : sync) : sync := push PXY (push PZX (push PYZ st)).

Lemma each_ext {A} : forall (f g : A -> sync -> option sync) l st, (forall x st, f x st = g x st) -> each f l st = each g l st.
Proof. intros f g l. induction l as [|x r IH]; intros st H; cbn; [reflexivity|]. rewrite H. destruct (g x st); [now apply IH|reflexivity]. Qed.

(** One step of a slot. *)
Lemma call_graph_changed : forall n st, call w (S n) Graph_changed st =
  match each (fun p => call w n (Scene_counterparts p (sy_graph st))) [PYZ; PZX; PXY] (set_glock true st) with
  | Some s => if sy_chain (set_glock false s) && negb (sy_dlock (set_glock false s))
      then match call w n Display_chain (set_dlock true (set_glock false s)) with Some s' => Some (set_dlock false s') | None => None end
      else Some (set_glock false s)
  | None => None end.
Proof. reflexivity. Qed.
Lemma call_graph_counterparts : forall n l st, call w (S n) (Graph_counterparts l) st =
  if sy_glock st then Some st else
  match match sy_graph st with [] => Some st | _ => call w n Graph_changed (set_graph [] st) end with
  | Some s => each (fun e st => if in_graph w e then (if is_in e (sy_graph st) then Some st else call w n Graph_changed (set_graph (sy_graph st ++ [e]) st)) else Some st) l s
  | None => None end.
Proof. reflexivity. Qed.
Lemma call_display_chain : forall n st, call w (S n) Display_chain st =
  match each (fun e st => if is_in e (sy_graph st) then call w n Graph_changed (set_graph (without e (sy_graph st)) st) else Some st) (sy_graph st) st with
  | Some s => match match sy_graph s with [] => Some s | _ => call w n Graph_changed (set_graph [] s) end with
      | Some s' => each (fun e st => if is_in e (sy_graph st) then Some st else call w n Graph_changed (set_graph (sy_graph st ++ [e]) st)) (sy_graph st) s'
      | None => None end
  | None => None end.
Proof. reflexivity. Qed.
Lemma call_scene_changed : forall n p st, call w (S n) (Scene_changed p) st =
  match call w n (Graph_counterparts (on_plane (sy_scene st) p)) (set_slock p true st) with Some s => Some (set_slock p false s) | None => None end.
Proof. reflexivity. Qed.

(** The graph does not listen while it talks. *)
Lemma scene_changed_locked : forall d p st, sy_glock st = true -> on_plane (sy_slock st) p = false ->
  call w (S (S d)) (Scene_changed p) st = Some st.
Proof.
  intros d p [g s gl sl dl ch vi] G L. cbn in G, L. subst gl. unfold call, chain_of, then_set. cbn. unfold set_slock. cbn. destruct sl as [a b c], p; cbn in *; subst; reflexivity.
Qed.

Lemma on_at {X} : forall (s : planes3 X) p x, on_plane (at_plane s p x) p = x.
Proof. intros s [] x; reflexivity. Qed.
Lemma at_at {X} : forall (s : planes3 X) p x y, at_plane (at_plane s p x) p y = at_plane s p y.
Proof. intros s [] x y; reflexivity. Qed.
Lemma on_other {X} : forall (s : planes3 X) p q x, p <> q -> on_plane (at_plane s p x) q = on_plane s q.
Proof. intros s [] [] x N; try reflexivity; now destruct N. Qed.
Lemma at_same {X} : forall (s : planes3 X) p, at_plane s p (on_plane s p) = s.
Proof. intros [] []; reflexivity. Qed.
Lemma set_scene_same : forall st p, set_scene p (on_plane (sy_scene st) p) st = st.
Proof. intros [] p. unfold set_scene. cbn. now rewrite at_same. Qed.
Lemma set_graph_same : forall st, set_graph (sy_graph st) st = st.
Proof. now intros []. Qed.

Lemma scene_counterparts_locked : forall d p l st, sy_glock st = true ->
  call w (S (S (S d))) (Scene_counterparts p l) st = Some (if on_plane (sy_slock st) p then st else set_scene p (gather (seen st p) l []) st).
Proof.
  intros d p l st G. remember (S (S d)) as n eqn:N. cbn -[call]. destruct (on_plane (sy_slock st) p) eqn:L; [cbn; now rewrite L|]. cbn. rewrite L. unfold chain_of.
  assert (C : (match on_plane (sy_scene st) p with [] => Some st | _ :: _ => call w n (Scene_changed p) (set_scene p [] st) end) = Some (set_scene p [] st)).
  { destruct (on_plane (sy_scene st) p) eqn:E; [rewrite <- E at 1; now rewrite set_scene_same|]. subst n. now apply scene_changed_locked. }
  rewrite C.
  assert (K : forall r acc, each (fun e st0 => if in_scene w p e then if negb (sy_visible st0 p e) || is_in e (on_plane (sy_scene st0) p) then Some st0
     else call w n (Scene_changed p) (set_scene p (on_plane (sy_scene st0) p ++ [e]) st0) else Some st0) r (set_scene p acc st) = Some (set_scene p (gather (seen st p) r acc) st)).
  { induction r as [|e r IH]; intros acc; [reflexivity|]. cbn [each gather]. change (seen st p e) with (in_scene w p e && sy_visible st p e).
    assert (V : sy_visible (set_scene p acc st) p e = sy_visible st p e) by reflexivity. rewrite V.
    replace (on_plane (sy_scene (set_scene p acc st)) p) with acc by (symmetry; apply (on_at (sy_scene st))).
    destruct (in_scene w p e); cbn [andb]; [|apply IH]. destruct (sy_visible st p e); cbn [negb orb andb]; [|apply IH]. destruct (is_in e acc); cbn [negb]; [apply IH|].
    replace (set_scene p (acc ++ [e]) (set_scene p acc st)) with (set_scene p (acc ++ [e]) st) by (unfold set_scene; cbn; now rewrite at_at).
    subst n. rewrite scene_changed_locked; [apply IH|exact G|exact L]. }
  apply K.
Qed.

Lemma push_fields : forall p st, sy_graph (push p st) = sy_graph st /\ sy_glock (push p st) = sy_glock st /\ sy_slock (push p st) = sy_slock st /\ sy_dlock (push p st) = sy_dlock st
  /\ sy_chain (push p st) = sy_chain st /\ sy_visible (push p st) = sy_visible st.
Proof. intros p st. unfold push. destruct (on_plane (sy_slock st) p); now repeat split. Qed.
Lemma pushed_fields : forall st, sy_graph (pushed st) = sy_graph st /\ sy_glock (pushed st) = sy_glock st /\ sy_slock (pushed st) = sy_slock st /\ sy_dlock (pushed st) = sy_dlock st
  /\ sy_chain (pushed st) = sy_chain st /\ sy_visible (pushed st) = sy_visible st.
Proof.
  intros st. unfold pushed. destruct (push_fields PXY (push PZX (push PYZ st))) as (A1 & A2 & A3 & A4 & A5 & A6). destruct (push_fields PZX (push PYZ st)) as (B1 & B2 & B3 & B4 & B5 & B6). destruct (push_fields PYZ st) as (C1 & C2 & C3 & C4 & C5 & C6).
  repeat split; congruence.
Qed.
Lemma pushed_scene : forall st p, on_plane (sy_scene (pushed st)) p = if on_plane (sy_slock st) p then on_plane (sy_scene st) p else gather (seen st p) (sy_graph st) [].
Proof.
  intros [g [s1 s2 s3] gl [l1 l2 l3] dl ch vi] p. destruct l1, l2, l3, p; reflexivity.
Qed.
(** The states after which nothing is left of what was selected in the scenes that listen. *)
Lemma pushed_again : forall g st, pushed (set_graph g (pushed st)) = pushed (set_graph g st).
Proof. intros g [g0 [s1 s2 s3] gl [l1 l2 l3] dl ch vi]. destruct l1, l2, l3; reflexivity. Qed.
Lemma pushed_reset : forall g g' st, pushed (set_graph g (pushed (set_graph g' st))) = pushed (set_graph g st).
Proof. intros g g' st. exact (pushed_again g (set_graph g' st)). Qed.
Lemma pushed_glock : forall b st, set_glock b (pushed st) = pushed (set_glock b st).
Proof. intros b [g0 [s1 s2 s3] gl [l1 l2 l3] dl ch vi]. destruct l1, l2, l3; reflexivity. Qed.
Lemma pushed_dlock : forall b st, set_dlock b (pushed st) = pushed (set_dlock b st).
Proof. intros b [g0 [s1 s2 s3] gl [l1 l2 l3] dl ch vi]. destruct l1, l2, l3; reflexivity. Qed.
Lemma pushed_twice : forall st, pushed (pushed st) = pushed st.
Proof. intros st. rewrite <- (set_graph_same (pushed st)) at 1. destruct (pushed_fields st) as [-> _]. now rewrite pushed_again, set_graph_same. Qed.

(** The graph talks to the scenes. *)
Lemma emitted : forall d st, sy_glock st = true ->
  each (fun p => call w (S (S (S d))) (Scene_counterparts p (sy_graph st))) [PYZ; PZX; PXY] st = Some (pushed st).
Proof.
  intros d st G. cbn [each]. rewrite (scene_counterparts_locked d PYZ _ st G). fold (push PYZ st). destruct (push_fields PYZ st) as (A1 & A2 & A3 & A4 & A5 & A6). rewrite <- A1.
  rewrite scene_counterparts_locked by congruence. fold (push PZX (push PYZ st)). destruct (push_fields PZX (push PYZ st)) as (B1 & B2 & B3 & B4 & B5 & B6). rewrite <- B1.
  rewrite scene_counterparts_locked by congruence. reflexivity.
Qed.

Lemma graph_changed_plain : forall d st, sy_glock st = false -> sy_chain st && negb (sy_dlock st) = false ->
  call w (S (S (S (S d)))) Graph_changed st = Some (pushed st).
Proof.
  intros d st G C. remember (S (S (S d))) as n eqn:N. rewrite call_graph_changed.
  assert (E := emitted d (set_glock true st) eq_refl). rewrite <- N in E. cbn [sy_graph set_glock] in E. rewrite E.
  destruct (pushed_fields (set_glock true st)) as (_ & _ & _ & P4 & P5 & _). cbn [sy_chain sy_dlock set_glock] in *. rewrite P4, P5. rewrite C. rewrite pushed_glock.
  f_equal. f_equal. destruct st. cbn in *. subst. reflexivity.
Qed.

(** Displaying the selected chain leaves the selection. *)
Lemma display_chain : forall d st, sy_glock st = false -> sy_dlock st = true -> NoDup (sy_graph st) ->
  exists st', call w (S (S (S (S (S d))))) Display_chain st = Some st' /\ pushed st' = pushed st /\ (sy_graph st <> [] -> st' = pushed st) /\ (sy_graph st = [] -> st' = st).
Proof.
  intros d st G D U. destruct (sy_graph st) as [|e0 r0] eqn:E0.
  { exists st. cbn. rewrite E0. cbn. unfold chain_of. cbn. rewrite E0. repeat split. now intros []. }
  exists (pushed st). split; [|split; [apply pushed_twice|split; [reflexivity|discriminate]]].
  remember (S (S (S (S d)))) as n eqn:N. rewrite call_display_chain.
  assert (GC : forall g, call w n Graph_changed (set_graph g st) = Some (pushed (set_graph g st))).
  { intros g. subst n. apply graph_changed_plain; [exact G|]. cbn. rewrite D. now destruct (sy_chain st). }
  assert (GP : forall g g', call w n Graph_changed (set_graph g (pushed (set_graph g' st))) = Some (pushed (set_graph g st))).
  { intros g g'. rewrite <- (pushed_reset g g' st). subst n.
    destruct (pushed_fields (set_graph g' st)) as (_ & P2 & _ & P4 & P5 & _). apply graph_changed_plain; cbn; [rewrite P2; exact G|]. rewrite P4, P5. cbn. rewrite D. now destruct (sy_chain st). }
  assert (H : forall l g, NoDup l -> (forall x, In x g <-> In x l) ->
    each (fun e st => if is_in e (sy_graph st) then call w n Graph_changed (set_graph (without e (sy_graph st)) st) else Some st) l (pushed (set_graph g st)) = Some (pushed (set_graph [] st))).
  { induction l as [|e r IH]; intros g NDl S.
    - cbn. destruct g as [|x g]; [reflexivity|]. destruct (proj1 (S x)). now left.
    - cbn [each]. destruct (pushed_fields (set_graph g st)) as [-> _]. cbn [sy_graph set_graph].
      assert (I : is_in e g = true) by (apply is_in_spec, S; now left). rewrite I, GP. inversion NDl as [|e' r' Ne Nr]; subst. apply IH; [exact Nr|].
      intros x. rewrite in_without, S. cbn. split; [intros [[->|K] N]; [now destruct N|exact K]|]. intros K. split; [now right|]. intros ->. contradiction. }
  assert (H0 : each (fun e st => if is_in e (sy_graph st) then call w n Graph_changed (set_graph (without e (sy_graph st)) st) else Some st) (sy_graph st) st = Some (pushed (set_graph [] st))).
  { rewrite E0. cbn [each]. rewrite E0. assert (I : is_in e0 (e0 :: r0) = true) by (apply is_in_spec; now left). rewrite I, GC. inversion U as [|e' r' Ne Nr]; subst. apply H; [exact Nr|].
    intros x. rewrite in_without. cbn. split; [intros [[->|K] N']; [now destruct N'|exact K]|]. intros K. split; [now right|]. intros ->. contradiction. }
  rewrite H0. destruct (pushed_fields (set_graph [] st)) as [-> _]. cbn [sy_graph set_graph].
  assert (H1 : forall l g, NoDup (g ++ l) ->
    each (fun e st => if is_in e (sy_graph st) then Some st else call w n Graph_changed (set_graph (sy_graph st ++ [e]) st)) l (pushed (set_graph g st)) = Some (pushed (set_graph (g ++ l) st))).
  { induction l as [|e r IH]; intros g Nd; [now rewrite app_nil_r|]. cbn [each]. destruct (pushed_fields (set_graph g st)) as [-> _]. cbn [sy_graph set_graph].
    assert (I : is_in e g = false). { apply is_in_no. intros I. apply (NoDup_remove_2 _ _ _ Nd). apply in_app_iff. now left. } rewrite I, GP.
    rewrite IH; [now rewrite <- app_assoc|]. now rewrite <- app_assoc. }
  rewrite H1; [cbn [app]; now rewrite set_graph_same|]. cbn. now rewrite E0.
Qed.

Lemma graph_changed : forall d st, sy_glock st = false -> NoDup (sy_graph st) ->
  call w (S (S (S (S (S (S d)))))) Graph_changed st = Some (pushed st).
Proof.
  intros d st G U. destruct (sy_chain st && negb (sy_dlock st)) eqn:C; [|now apply graph_changed_plain].
  remember (S (S (S (S (S d))))) as n eqn:N. rewrite call_graph_changed.
  assert (E := emitted (S (S d)) (set_glock true st) eq_refl). rewrite <- N in E. cbn [sy_graph set_glock] in E. rewrite E.
  destruct (pushed_fields (set_glock true st)) as (_ & _ & _ & P4 & P5 & _). cbn [sy_chain sy_dlock set_glock] in *. rewrite P4, P5, C. rewrite pushed_glock.
  assert (Q : set_glock false (set_glock true st) = st) by (destruct st; cbn in *; subst; reflexivity). rewrite Q, pushed_dlock.
  destruct (pushed_fields (set_dlock true st)) as (F1 & F2 & F3 & F4 & F5 & F6). cbn in F1, F2, F3, F4, F5, F6.
  destruct (display_chain d (pushed (set_dlock true st))) as (st' & S1 & _ & S3 & S4); [congruence|congruence|congruence|]. rewrite <- N in S1. rewrite S1.
  assert (R : st' = pushed (set_dlock true st)).
  { destruct (sy_graph (pushed (set_dlock true st))) eqn:Z; [now apply S4|]. rewrite S3 by discriminate. apply pushed_twice. }
  rewrite R, pushed_dlock. f_equal. f_equal. destruct st. cbn in *. apply andb_true_iff in C. destruct C as [_ C]. apply negb_true_iff in C. subst. reflexivity.
Qed.

(** The graph listens to a scene. *)
Definition calm (st : sync) : Prop := sy_graph st = [] -> pushed st = st.
Lemma graph_counterparts : forall d l st, sy_glock st = false -> NoDup (sy_graph st) -> calm st ->
  call w (S (S (S (S (S (S (S d))))))) (Graph_counterparts l) st = Some (pushed (set_graph (gather (in_graph w) l []) st)).
Proof.
  intros d l st G U K. remember (S (S (S (S (S (S d)))))) as n eqn:N. rewrite call_graph_counterparts, G.
  assert (GP : forall g g', NoDup g -> call w n Graph_changed (set_graph g (pushed (set_graph g' st))) = Some (pushed (set_graph g st))).
  { intros g g' Ug. rewrite <- (pushed_reset g g' st). subst n. apply graph_changed; [|exact Ug]. destruct (pushed_fields (set_graph g' st)) as (_ & P2 & _). exact (eq_trans P2 G). }
  assert (C : (match sy_graph st with [] => Some st | _ :: _ => call w n Graph_changed (set_graph [] st) end) = Some (pushed (set_graph [] st))).
  { destruct (sy_graph st) eqn:E; [|subst n; apply graph_changed; [exact G|constructor]]. rewrite <- E, set_graph_same. now rewrite (K E). }
  rewrite C.
  assert (L : forall l acc, NoDup acc ->
    each (fun e st => if in_graph w e then (if is_in e (sy_graph st) then Some st else call w n Graph_changed (set_graph (sy_graph st ++ [e]) st)) else Some st) l (pushed (set_graph acc st))
    = Some (pushed (set_graph (gather (in_graph w) l acc) st))).
  { clear l. induction l as [|e r IH]; intros acc Ua; [reflexivity|]. cbn [each gather]. destruct (pushed_fields (set_graph acc st)) as [-> _]. cbn [sy_graph set_graph].
    destruct (in_graph w e); cbn [andb]; [|now apply IH]. destruct (is_in e acc) eqn:I; cbn [negb]; [now apply IH|].
    assert (Ue : NoDup (acc ++ [e])) by (apply nodup_snoc; [exact Ua|now apply is_in_no]). rewrite GP by exact Ue. now apply IH. }
  apply L. constructor.
Qed.

Lemma scene_changed : forall d p st, sy_glock st = false -> NoDup (sy_graph st) -> calm (set_slock p true st) ->
  call w (S (S (S (S (S (S (S (S d)))))))) (Scene_changed p) st
  = Some (set_slock p false (pushed (set_graph (gather (in_graph w) (on_plane (sy_scene st) p) []) (set_slock p true st)))).
Proof.
  intros d p st G U K. rewrite call_scene_changed. now rewrite graph_counterparts.
Qed.
End With.

(** ** What holds between gestures *)

Definition plane_eq_dec (p q : Plane) : {p = q} + {p <> q}.
Proof. decide equality. Defined.

(** [busy p l]: the items of [l] are about to be hidden in [p]. *)
Record busy (w : items) (p : Plane) (l : list nat) (st : sync) : Prop := {
  b_free : released st;
  b_nodup : NoDup (sy_graph st);
  b_nodes : forall e, selected_node st e -> in_graph w e = true;
  b_nodups : forall q, NoDup (on_plane (sy_scene st) q);
  b_follow : forall q e, selected_in st q e -> selected_node st e;
  b_has : forall q e, selected_in st q e -> in_scene w q e = true;
  b_seen : forall q e, selected_in st q e -> sy_visible st q e = true \/ (q = p /\ In e l)
}.
Definition linked (w : items) (st : sync) : Prop := busy w PXY [] st.

Lemma linked_any : forall w p st, linked w st -> busy w p [] st.
Proof. intros w p st []. constructor; auto. intros q e I. destruct (b_seen0 q e I) as [H|[_ []]]. now left. Qed.
Lemma busy_done : forall w p st, busy w p [] st -> linked w st.
Proof. intros w p st []. constructor; auto. intros q e I. destruct (b_seen0 q e I) as [H|[_ []]]. now left. Qed.

Lemma no_more : forall (l : list nat), (forall x, ~ In x l) -> l = [].
Proof. intros [|x r] H; [reflexivity|]. destruct (H x). now left. Qed.
Lemma still : forall w st, (forall q, on_plane (sy_slock st) q = false -> on_plane (sy_scene st) q = []) -> sy_graph st = [] -> pushed w st = st.
Proof.
  intros w [g [s1 s2 s3] gl [l1 l2 l3] dl ch vi] H E. cbn in E. subst g. assert (A := H PYZ). assert (B := H PZX). assert (C := H PXY). cbn in A, B, C.
  destruct l1, l2, l3; cbn; try (rewrite A by reflexivity); try (rewrite B by reflexivity); try (rewrite C by reflexivity); reflexivity.
Qed.

(** A scene in which the user changed the selection, all listening. *)
Lemma from_scene : forall w d p st, released st -> NoDup (sy_graph st) -> (forall q e, q <> p -> selected_in st q e -> selected_node st e) ->
  exists st', call w (8 + d) (Scene_changed p) st = Some st' /\ released st' /\ sy_graph st' = gather (in_graph w) (on_plane (sy_scene st) p) []
    /\ on_plane (sy_scene st') p = on_plane (sy_scene st) p /\ (forall q, q <> p -> on_plane (sy_scene st') q = gather (seen w st q) (sy_graph st') [])
    /\ sy_visible st' = sy_visible st /\ sy_chain st' = sy_chain st.
Proof.
  intros w d p st (G & D & L) U F. eexists. split; [apply (scene_changed w d p st G U)|].
  - intros E. apply still; [|exact E]. intros q K. destruct (plane_eq_dec q p) as [->|N]; [cbn in K; rewrite on_at in K; discriminate|].
    apply no_more. intros x I. assert (H := F q x N I). unfold selected_node in H. cbn in E. rewrite E in H. exact H.
  - set (g := gather (in_graph w) (on_plane (sy_scene st) p) []). set (s := set_graph g (set_slock p true st)).
    destruct (pushed_fields w s) as (P1 & P2 & P3 & P4 & P5 & P6). split; [|split; [|split; [|split; [|split]]]].
    + split; [cbn; rewrite P2; exact G|split; [cbn; rewrite P4; exact D|]]. intros q. cbn. rewrite P3. cbn. rewrite at_at. destruct (plane_eq_dec p q) as [->|N]; [apply on_at|]. rewrite on_other by exact N. apply L.
    + cbn. rewrite P1. reflexivity.
    + cbn. rewrite pushed_scene. cbn. now rewrite on_at.
    + intros q N. cbn. rewrite pushed_scene, P1. cbn. rewrite on_other by (intros ->; now apply N). rewrite L. reflexivity.
    + cbn. rewrite P6. reflexivity.
    + cbn. rewrite P5. reflexivity.
Qed.

Lemma hidden_one : forall w d p e l st, covered w -> busy w p (e :: l) st ->
  exists st', hide_item w (8 + d) p e st = Some st' /\ busy w p l st' /\ sy_visible st' = sy_visible st /\ sy_chain st' = sy_chain st.
Proof.
  intros w d p e l st W B. unfold hide_item. destruct (is_in e (on_plane (sy_scene st) p)) eqn:I.
  - destruct (from_scene w d p (set_scene p (without e (on_plane (sy_scene st) p)) st)) as (st' & C & R & G & S & O & V & Ch).
    { destruct (b_free _ _ _ _ B) as (F1 & F2 & F3). now repeat split. } { exact (b_nodup _ _ _ _ B). }
    { intros q x N H. unfold selected_in in H. cbn in H. rewrite on_other in H by (intros ->; now apply N). exact (b_follow _ _ _ _ B q x H). }
    exists st'. split; [exact C|]. split; [|split; [exact V|exact Ch]]. cbn in S, G. rewrite on_at in S, G.
    assert (Sp : forall x, In x (on_plane (sy_scene st') p) <-> selected_in st p x /\ x <> e) by (intros x; rewrite S; apply in_without).
    assert (Gx : forall x, selected_node st' x <-> selected_in st p x /\ x <> e).
    { intros x. unfold selected_node. rewrite G, in_gather, in_without. split; [intros [[]|[H _]]; exact H|]. intros [H N]. right. split; [split; [exact H|exact N]|]. apply (W p), (b_has _ _ _ _ B), H. }
    assert (Oq : forall q x, q <> p -> selected_in st' q x -> selected_node st' x /\ seen w st q x = true).
    { intros q x N H. unfold selected_in in H. rewrite (O q N) in H. apply in_gather in H. destruct H as [[]|[H K]]. split; [exact H|exact K]. }
    constructor.
    + exact R.
    + rewrite G. apply nodup_gather. constructor.
    + intros x H. unfold selected_node in H. rewrite G in H. apply in_gather in H. now destruct H as [[]|[_ H]].
    + intros q. destruct (plane_eq_dec q p) as [->|N]; [rewrite S; apply nodup_without, (b_nodups _ _ _ _ B)|]. rewrite (O q N). apply nodup_gather. constructor.
    + intros q x H. destruct (plane_eq_dec q p) as [->|N]; [apply Gx, Sp, H|]. now apply (Oq q).
    + intros q x H. destruct (plane_eq_dec q p) as [->|N]; [apply (b_has _ _ _ _ B), Sp, H|]. apply (Oq q x N) in H. destruct H as [_ H]. now apply andb_true_iff in H.
    + intros q x H. rewrite V. destruct (plane_eq_dec q p) as [->|N].
      * apply Sp in H. destruct H as [H N]. destruct (b_seen _ _ _ _ B p x H) as [K|[_ [<-|K]]]; [now left|now destruct N|right; split; [reflexivity|exact K]].
      * apply (Oq q x N) in H. destruct H as [_ H]. apply andb_true_iff in H. left. apply H.
  - exists st. split; [reflexivity|]. split; [|split; reflexivity]. destruct B. constructor; auto. intros q x H. destruct (b_seen0 q x H) as [K|[-> [<-|K]]]; [now left| |right; split; [reflexivity|exact K]].
    apply is_in_no in I. contradiction.
Qed.

Lemma hidden_all : forall w d p (f : nat -> bool) l st, covered w -> busy w p l st -> (forall e, f e = true -> sy_visible st p e = true) ->
  exists st', each (fun e st => if f e then Some st else hide_item w (8 + d) p e st) l st = Some st' /\ linked w st' /\ sy_visible st' = sy_visible st /\ sy_chain st' = sy_chain st.
Proof.
  intros w d p f l. induction l as [|e r IH]; intros st W B V.
  - exists st. split; [reflexivity|]. split; [|split; reflexivity]. now apply busy_done with p.
  - cbn [each]. destruct (f e) eqn:E.
    + apply IH; [exact W| |exact V]. destruct B. constructor; auto. intros q x H. destruct (b_seen0 q x H) as [K|[-> [<-|K]]]; [now left|left; apply V, E|right; split; [reflexivity|exact K]].
    + destruct (hidden_one w d p e r st W B) as (st1 & -> & B1 & V1 & C1). destruct (IH st1 W B1) as (st2 & E2 & L2 & V2 & C2); [now rewrite V1|]. exists st2. split; [exact E2|]. split; [exact L2|]. split; congruence.
Qed.

Lemma lines_plane : forall w d p (f : nat -> bool) st, covered w -> linked w st ->
  exists st', each (fun e st => if f e then Some st else hide_item w (8 + d) p e st) (on_plane (sy_scene st) p) (set_visible p f st) = Some st' /\ linked w st'
    /\ sy_visible st' = sy_visible (set_visible p f st) /\ sy_chain st' = sy_chain st.
Proof.
  intros w d p f st W B. apply (hidden_all w d p f (on_plane (sy_scene st) p) (set_visible p f st)); [exact W| |intros e E; cbn; now destruct p].
  destruct B. constructor; auto. intros q x H. destruct (plane_eq_dec q p) as [->|N]; [right; split; [reflexivity|exact H]|].
  left. destruct (b_seen0 q x H) as [K|[_ []]]. cbn. destruct p, q; try exact K; now destruct N.
Qed.

Lemma lines_all : forall w d (f : Plane -> nat -> bool) st, covered w -> linked w st ->
  exists st', gesture_on w (8 + d) (Lines f) st = Some st' /\ linked w st' /\ sy_chain st' = sy_chain st /\ (forall p e, sy_visible st' p e = f p e).
Proof.
  intros w d f st W B. unfold gesture_on. cbn [each].
  destruct (lines_plane w d PYZ (f PYZ) st W B) as (s1 & -> & B1 & V1 & C1).
  destruct (lines_plane w d PZX (f PZX) s1 W B1) as (s2 & -> & B2 & V2 & C2).
  destruct (lines_plane w d PXY (f PXY) s2 W B2) as (s3 & -> & B3 & V3 & C3).
  exists s3. split; [reflexivity|]. split; [exact B3|]. split; [congruence|]. intros p e. rewrite V3. cbn. rewrite V2. cbn. rewrite V1. cbn. now destruct p.
Qed.

Lemma same_list_no : forall l l', same_list l l' = true <-> (forall e, In e l <-> In e l').
Proof.
  intros l l'. unfold same_list. rewrite andb_true_iff, !forallb_forall. setoid_rewrite is_in_spec. split; [intros [A B] e; split; auto|]. intros H. split; intros e; apply H.
Qed.

(** The selection made in a scene goes to all. *)
Lemma in_scene_step : forall w d p l st, covered w -> linked w st ->
  exists st', gesture_on w (8 + d) (In_scene p l) st = Some st' /\ linked w st' /\ sy_chain st' = sy_chain st /\ sy_visible st' = sy_visible st
    /\ (forall e, selected_in st' p e <-> In e l /\ selectable w st p e)
    /\ (~ (forall e, selected_in st p e <-> In e l /\ selectable w st p e) -> agree w st' /\ forall e, selected_node st' e <-> In e l /\ selectable w st p e).
Proof.
  intros w d p l st W B. unfold gesture_on. set (l' := nodup Nat.eq_dec (filter (fun e => in_scene w p e && sy_visible st p e) l)).
  assert (L : forall e, In e l' <-> In e l /\ selectable w st p e) by (intros e; unfold l', selectable; rewrite nodup_In, filter_In, andb_true_iff; reflexivity).
  destruct (same_list l' (on_plane (sy_scene st) p)) eqn:E.
  - exists st. split; [reflexivity|]. split; [exact B|]. split; [reflexivity|]. split; [reflexivity|]. rewrite same_list_no in E.
    assert (K : forall e, selected_in st p e <-> In e l /\ selectable w st p e) by (intros e; rewrite <- L; symmetry; apply E). split; [exact K|]. intros N. now destruct N.
  - destruct (from_scene w d p (set_scene p l' st)) as (st' & C & R & G & S & O & V & Ch).
    { destruct (b_free _ _ _ _ B) as (F1 & F2 & F3). now repeat split. } { exact (b_nodup _ _ _ _ B). }
    { intros q x N H. unfold selected_in in H. cbn in H. rewrite on_other in H by (intros ->; now apply N). exact (b_follow _ _ _ _ B q x H). }
    cbn in S, G. rewrite on_at in S, G.
    assert (Sp : forall x, selected_in st' p x <-> In x l /\ selectable w st p x) by (intros x; unfold selected_in; rewrite S; apply L).
    assert (Gx : forall x, selected_node st' x <-> In x l /\ selectable w st p x).
    { intros x. unfold selected_node. rewrite G, in_gather, <- L. split; [intros [[]|[H _]]; exact H|]. intros H. right. split; [exact H|]. apply L in H. destruct H as (_ & H & _). exact (W p x H). }
    assert (A : agree w st').
    { intros q x. unfold selectable. rewrite V. cbn. destruct (plane_eq_dec q p) as [->|N]; [rewrite Sp, Gx; unfold selectable; intuition|].
      unfold selected_in. rewrite (O q N), in_gather. unfold seen. cbn. rewrite andb_true_iff. unfold selected_node. intuition. }
    exists st'. split; [exact C|]. split; [|split; [exact Ch|split; [exact V|split; [exact Sp|intros _; split; [exact A|exact Gx]]]]].
    constructor.
    + exact R.
    + rewrite G. apply nodup_gather. constructor.
    + intros x H. unfold selected_node in H. rewrite G in H. apply in_gather in H. now destruct H as [[]|[_ H]].
    + intros q. destruct (plane_eq_dec q p) as [->|N]; [rewrite S; apply NoDup_nodup|]. rewrite (O q N). apply nodup_gather. constructor.
    + intros q x H. now apply A in H.
    + intros q x H. apply A in H. apply H.
    + intros q x H. apply A in H. left. apply H.
Qed.

Lemma in_graph_step : forall w d l st, linked w st ->
  exists st', gesture_on w (8 + d) (In_graph l) st = Some st' /\ linked w st' /\ sy_chain st' = sy_chain st /\ sy_visible st' = sy_visible st
    /\ (forall e, selected_node st' e <-> In e l /\ in_graph w e = true)
    /\ (~ (forall e, selected_node st e <-> In e l /\ in_graph w e = true) -> agree w st').
Proof.
  intros w d l st B. unfold gesture_on. set (l' := nodup Nat.eq_dec (filter (in_graph w) l)).
  assert (L : forall e, In e l' <-> In e l /\ in_graph w e = true) by (intros e; unfold l'; rewrite nodup_In, filter_In; reflexivity).
  destruct (same_list l' (sy_graph st)) eqn:E.
  - exists st. split; [reflexivity|]. split; [exact B|]. split; [reflexivity|]. split; [reflexivity|]. rewrite same_list_no in E.
    assert (K : forall e, selected_node st e <-> In e l /\ in_graph w e = true) by (intros e; rewrite <- L; symmetry; apply E). split; [exact K|]. intros N. now destruct N.
  - destruct (b_free _ _ _ _ B) as (F1 & F2 & F3).
    change (8 + d) with (S (S (S (S (S (S (2 + d))))))). rewrite (graph_changed w (2 + d) (set_graph l' st)); [|exact F1|apply NoDup_nodup].
    destruct (pushed_fields w (set_graph l' st)) as (P1 & P2 & P3 & P4 & P5 & P6). cbn in P1, P2, P3, P4, P5, P6.
    assert (S : forall q x, selected_in (pushed w (set_graph l' st)) q x <-> In x l' /\ selectable w st q x).
    { intros q x. unfold selected_in. rewrite pushed_scene. cbn. rewrite F3, in_gather. unfold seen. cbn. rewrite andb_true_iff. unfold selectable. intuition. }
    assert (N : forall x, selected_node (pushed w (set_graph l' st)) x <-> In x l') by (intros x; unfold selected_node; now rewrite P1).
    assert (V : forall q x, selectable w (pushed w (set_graph l' st)) q x <-> selectable w st q x) by (intros q x; unfold selectable; now rewrite P6).
    eexists. split; [reflexivity|]. split; [|split; [exact P5|split; [exact P6|split; [intros e; now rewrite N, L|intros _ q x; now rewrite S, N, V]]]].
    constructor.
    + split; [congruence|split; [congruence|]]. intros q. rewrite P3. apply F3.
    + rewrite P1. apply NoDup_nodup.
    + intros x H. apply N, L in H. apply H.
    + intros q. rewrite pushed_scene. cbn. rewrite F3. apply nodup_gather. constructor.
    + intros q x H. apply S in H. now apply N.
    + intros q x H. apply S in H. apply H.
    + intros q x H. apply S in H. left. rewrite P6. apply H.
Qed.

Lemma step_ends : forall w d g st, covered w -> linked w st -> exists st', gesture_on w (8 + d) g st = Some st' /\ linked w st'.
Proof.
  intros w d [p l|l|f] st W B.
  - destruct (in_scene_step w d p l st W B) as (st' & E & L & _). now exists st'.
  - destruct (in_graph_step w d l st B) as (st' & E & L & _). now exists st'.
  - destruct (lines_all w d f st W B) as (st' & E & L & _). now exists st'.
Qed.
Lemma linked_start : forall w chain visible, linked w (unselected chain visible).
Proof.
  intros w chain visible. constructor; cbn; try (now repeat constructor).
  - repeat split. now intros [].
  - intros []; constructor.
  - now intros [] e [].
  - now intros [] e [].
  - now intros [] e [].
Qed.
Lemma steps_end : forall w d l st, covered w -> linked w st -> exists st', gestures w (8 + d) l st = Some st' /\ linked w st'.
Proof.
  intros w d l. induction l as [|g r IH]; intros st W B; [now exists st|]. cbn [gestures]. destruct (step_ends w d g st W B) as (st1 & -> & B1). now apply IH.
Qed.

(** ** Deeper *)

Lemma each_more {A} : forall (f g : A -> sync -> option sync), (forall x st s, f x st = Some s -> g x st = Some s) ->
  forall l st s, each f l st = Some s -> each g l st = Some s.
Proof. intros f g H l. induction l as [|x r IH]; intros st s; cbn; [trivial|]. destruct (f x st) eqn:E; [|discriminate]. rewrite (H _ _ _ E). apply IH. Qed.
Lemma call_scene_counterparts : forall w n p l st, call w (S n) (Scene_counterparts p l) st =
  if on_plane (sy_slock st) p then Some st else
  match match on_plane (sy_scene st) p with [] => Some st | _ => call w n (Scene_changed p) (set_scene p [] st) end with
  | Some s => each (fun e st => if in_scene w p e then (if negb (sy_visible st p e) || is_in e (on_plane (sy_scene st) p) then Some st
      else call w n (Scene_changed p) (set_scene p (on_plane (sy_scene st) p ++ [e]) st)) else Some st) l s
  | None => None end.
Proof. reflexivity. Qed.
Lemma call_more : forall w n c st s, call w n c st = Some s -> call w (S n) c st = Some s.
Proof.
  intros w n. induction n as [|n IH]; intros c st s H; [discriminate|]. destruct c as [|l| |p|p l].
  - rewrite call_graph_changed in *. destruct (each _ [PYZ; PZX; PXY] (set_glock true st)) as [s1|] eqn:E in H; [|discriminate].
    rewrite (each_more _ (fun p => call w (S n) (Scene_counterparts p (sy_graph st))) (fun p st0 s0 => IH _ st0 s0) _ _ _ E).
    destruct (_ && _); [|exact H]. destruct (call w n Display_chain _) as [s2|] eqn:D in H; [|discriminate]. now rewrite (IH _ _ _ D).
  - rewrite call_graph_counterparts in *. destruct (sy_glock st); [exact H|].
    destruct (match sy_graph st with [] => Some st | _ => call w n Graph_changed (set_graph [] st) end) as [s1|] eqn:C in H; [|discriminate].
    assert (C' : (match sy_graph st with [] => Some st | _ => call w (S n) Graph_changed (set_graph [] st) end) = Some s1) by (destruct (sy_graph st); [exact C|now apply IH]).
    rewrite C'. eapply each_more; [|exact H]. intros x t s'. cbn beta. destruct (in_graph w x); [|trivial]. destruct (is_in _ _); [trivial|apply IH].
  - rewrite call_display_chain in *. destruct (each _ (sy_graph st) st) as [s1|] eqn:E in H; [|discriminate].
    rewrite (each_more _ (fun e st => if is_in e (sy_graph st) then call w (S n) Graph_changed (set_graph (without e (sy_graph st)) st) else Some st)) with (2 := E).
    2:{ intros x t s'. cbn beta. destruct (is_in _ _); [apply IH|trivial]. }
    destruct (match sy_graph s1 with [] => Some s1 | _ => call w n Graph_changed (set_graph [] s1) end) as [s2|] eqn:C in H; [|discriminate].
    assert (C' : (match sy_graph s1 with [] => Some s1 | _ => call w (S n) Graph_changed (set_graph [] s1) end) = Some s2) by (destruct (sy_graph s1); [exact C|now apply IH]).
    rewrite C'. eapply each_more; [|exact H]. intros x t s'. cbn beta. destruct (is_in _ _); [trivial|apply IH].
  - rewrite call_scene_changed in *. destruct (call w n _ _) as [s1|] eqn:E in H; [|discriminate]. now rewrite (IH _ _ _ E).
  - rewrite call_scene_counterparts in *. destruct (on_plane (sy_slock st) p); [exact H|].
    destruct (match on_plane (sy_scene st) p with [] => Some st | _ => call w n (Scene_changed p) (set_scene p [] st) end) as [s1|] eqn:C in H; [|discriminate].
    assert (C' : (match on_plane (sy_scene st) p with [] => Some st | _ => call w (S n) (Scene_changed p) (set_scene p [] st) end) = Some s1) by (destruct (on_plane (sy_scene st) p); [exact C|now apply IH]).
    rewrite C'. eapply each_more; [|exact H]. intros x t s'. cbn beta. destruct (in_scene w p x); [|trivial]. destruct (_ || _); [trivial|apply IH].
Qed.
Lemma gesture_more : forall w n g st s, gesture_on w n g st = Some s -> gesture_on w (S n) g st = Some s.
Proof.
  intros w n [p l|l|f] st s; unfold gesture_on.
  - destruct (same_list _ _); [trivial|apply call_more].
  - destruct (same_list _ _); [trivial|apply call_more].
  - apply each_more. intros p t s'. apply each_more. intros e u s''. destruct (f p e); [trivial|]. unfold hide_item. destruct (is_in _ _); [apply call_more|trivial].
Qed.
Lemma gestures_more : forall w n l st s, gestures w n l st = Some s -> gestures w (S n) l st = Some s.
Proof.
  intros w n l. induction l as [|g r IH]; intros st s; cbn [gestures]; [trivial|]. destruct (gesture_on w n g st) eqn:E; [|discriminate]. rewrite (gesture_more _ _ _ _ _ E). apply IH.
Qed.
Lemma does_8 : forall w g st s, does w g st s -> exists d, gesture_on w (8 + d) g st = Some s.
Proof. intros w g st s [d H]. exists d. cbn [plus]. now do 8 apply gesture_more. Qed.

Lemma selecting_linked : forall w chain visible l st, covered w -> selecting w chain visible l st -> linked w st.
Proof.
  intros w chain visible l st W [d H]. assert (E : gestures w (8 + d) l (unselected chain visible) = Some st) by (cbn [plus]; now do 8 apply gestures_more).
  destruct (steps_end w d l (unselected chain visible) W (linked_start w chain visible)) as (st' & E' & B). congruence.
Qed.
