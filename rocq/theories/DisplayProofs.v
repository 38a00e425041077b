(** The window of DisplayModel.v does what a small machine does, whose state is what there is to see
    at each timepoint. *)
From Coq Require Import List Arith Bool Lia.
From Verif Require Import GeomModel HistModel StructureModel DisplayModel DisplaySpec.
Import ListNotations.

Record look := mkLook {
  lk_cur : option nat;
  lk_at : nat -> option (visibility * graph);
  lk_plane : Plane;
  lk_axes : ViewAxis -> bool;
  lk_wires : wires;
  lk_mesh : visibility;
  lk_mode : mode
}.
Definition upd {X} (f : nat -> option X) (t : nat) (x : option X) : nat -> option X := fun u => if u =? t then x else f u.
Definition on_cur (h : visibility * graph -> visibility * graph) (s : look) : nat -> option (visibility * graph) :=
  match lk_cur s with
  | Some t => upd (lk_at s) t (option_map h (lk_at s t))
  | None => lk_at s
  end.
Definition fresh (s : look) (old : visibility * mode) : visibility * graph :=
  (fst old, mkGraph (snd old) (lk_plane s) (lk_axes s) (lk_wires s)).
Definition put_plane p s := mkLook (lk_cur s) (on_cur (fun x => (fst x, graph_set_plane p (snd x))) s) p (lk_axes s) (lk_wires s) (lk_mesh s) (lk_mode s).
Definition put_mesh m s := mkLook (lk_cur s) (on_cur (fun x => (m, graph_set_axes (graph_axes m) (snd x))) s) (lk_plane s) (graph_axes m) (lk_wires s) m (lk_mode s).
Definition put_mode m s := mkLook (lk_cur s) (on_cur (fun x => (fst x, graph_set_mode m (snd x))) s) (lk_plane s) (lk_axes s) (lk_wires s) (lk_mesh s) m.
Definition put_wires w s := mkLook (lk_cur s) (fun t => option_map (fun x => (fst x, graph_set_wires w (snd x))) (lk_at s t)) (lk_plane s) (lk_axes s) w (lk_mesh s) (lk_mode s).
Definition here (s : look) : visibility * mode :=
  match lk_cur s with
  | Some t => match lk_at s t with Some x => (fst x, gr_mode (snd x)) | None => (FULL, SELECTED_CHAIN) end
  | None => (FULL, SELECTED_CHAIN)
  end.
Definition put_edit t s :=
  match lk_at s t with
  | Some _ => mkLook (Some t) (lk_at s) (lk_plane s) (lk_axes s) (lk_wires s) (lk_mesh s) (lk_mode s)
  | None => mkLook (Some t) (upd (lk_at s) t (Some (fresh s (here s)))) (lk_plane s) (lk_axes s) (lk_wires s) (lk_mesh s) (lk_mode s)
  end.
Definition put_go t s :=
  match lk_at s t with
  | Some x => mkLook (Some t) (lk_at s) (lk_plane s) (lk_axes s) (lk_wires s) (fst x) (gr_mode (snd x))
  | None => put_edit t s
  end.
Definition put_open r s :=
  match r with
  | Some t => put_edit t (mkLook None (fun _ => None) (lk_plane s) (lk_axes s) (lk_wires s) (lk_mesh s) (lk_mode s))
  | None => mkLook None (fun _ => None) (lk_plane s) (lk_axes s) (lk_wires s) (lk_mesh s) (lk_mode s)
  end.
Definition put (a : action) (s : look) : look :=
  match a, lk_cur s with
  | Open r, _ => put_open r s
  | _, None => s
  | ClickPlane p, _ => put_plane p s
  | ClickMesh m, _ => put_mesh m s
  | ClickMode m, _ => put_mode m s
  | ClickWires w, _ => put_wires w s
  | PageUp, _ => put_plane (page_up (lk_plane s)) s
  | PageDown, _ => put_plane (page_down (lk_plane s)) s
  | Go t, _ => put_go t s
  | Edit t, _ => put_edit t s
  end.
Definition look0 : look := mkLook None (fun _ => None) PXY (fun _ => true) CURVED FULL SELECTED_CHAIN.

Record agrees (d : display) (s : look) : Prop := {
  ag_open : d_open d = match lk_cur s with Some _ => true | None => false end;
  ag_sboard : st_board (d_structure d) = d_open d;
  ag_pboard : pr_board (d_processing d) = d_open d;
  ag_scur : st_cur (d_structure d) = lk_cur s;
  ag_pcur : pr_cur (d_processing d) = lk_cur s;
  ag_sscene : st_scene (d_structure d) = option_map (fun t => (t, lk_plane s)) (lk_cur s);
  ag_pscene : pr_scene (d_processing d) = lk_cur s;
  ag_splane : st_plane (d_structure d) = lk_plane s;
  ag_pplane : pr_plane (d_processing d) = lk_plane s;
  ag_dplane : d_plane d = lk_plane s;
  ag_axes : pr_axes (d_processing d) = lk_axes s;
  ag_pwires : pr_wires (d_processing d) = lk_wires s;
  ag_dwires : d_wires d = lk_wires s;
  ag_mesh : d_mesh d = lk_mesh s;
  ag_mode : d_mode d = lk_mode s;
  ag_states : forall t, assoc t (st_states (d_structure d)) = option_map (fun x => all_planes (fst x)) (lk_at s t);
  ag_graphs : forall t, assoc t (pr_states (d_processing d)) = option_map snd (lk_at s t);
  ag_here : forall t, lk_cur s = Some t -> lk_at s t <> None
}.

(** ** Maps *)

Lemma assoc_alter {X} : forall (f : X -> X) t l u, assoc u (alter t f l) = if u =? t then option_map f (assoc u l) else assoc u l.
Proof.
  intros f t l u. induction l as [|[k x] r IH]; cbn; [now destruct (u =? t)|].
  destruct (Nat.eqb_spec t k) as [E|N]; cbn.
  - rewrite E. now destruct (u =? k).
  - destruct (Nat.eqb_spec u k) as [E|N']; [|exact IH]. rewrite E. destruct (Nat.eqb_spec k t); [congruence|reflexivity].
Qed.
Lemma assoc_map {X} : forall (f : X -> X) l u, assoc u (map (fun s => (fst s, f (snd s))) l) = option_map f (assoc u l).
Proof. intros f l u. induction l as [|[k x] r IH]; cbn; [reflexivity|]. now destruct (u =? k). Qed.
Lemma assoc_snoc {X} : forall t (x : X) l u, assoc t l = None -> assoc u (l ++ [(t, x)]) = if u =? t then Some x else assoc u l.
Proof.
  intros t x l u. induction l as [|[k y] r IH]; cbn; [reflexivity|].
  destruct (Nat.eqb_spec t k) as [->|N]; [discriminate|]. intros E. rewrite (IH E).
  destruct (Nat.eqb_spec u k) as [E'|N']; [|reflexivity]. rewrite E'. destruct (Nat.eqb_spec k t); [congruence|reflexivity].
Qed.

(** ** Actions *)

Ltac spread A := destruct A as [O B1 B2 C1 C2 S1 S2 P1 P2 P3 Ax W1 W2 Me Mo St Gr He]; cbn in *.
Ltac same := constructor; cbn in *; try assumption; try congruence.

Section At.
Context (d : display) (s : look) (A : agrees d s) (t : nat) (C : lk_cur s = Some t).

Lemma at_structure : exists x, lk_at s t = Some x /\ at_cur (st_cur (d_structure d)) (st_states (d_structure d)) = Ok (t, all_planes (fst x))
  /\ at_cur (pr_cur (d_processing d)) (pr_states (d_processing d)) = Ok (t, snd x).
Proof using A C.
  spread A. destruct (lk_at s t) as [x|] eqn:E; [|now destruct (He t C)]. exists x. split; [reflexivity|].
  unfold at_cur. rewrite C1, C2, C, St, Gr, E. now split.
Qed.

Lemma did_plane : forall p, exists d', click_plane p d = Ok d' /\ agrees d' (put_plane p s).
Proof using A C.
  intros p. destruct at_structure as (x & X & E1 & E2). unfold click_plane, structure_set_plane, processing_set_plane. rewrite E1, E2. cbn.
  eexists. split; [reflexivity|]. spread A. unfold put_plane. same.
  - now rewrite C.
  - intros u. unfold on_cur. rewrite C. unfold upd. rewrite St. destruct (Nat.eqb_spec u t) as [->|]; [now rewrite X|reflexivity].
  - intros u. unfold on_cur. rewrite assoc_alter, C. unfold upd. rewrite Gr. destruct (Nat.eqb_spec u t) as [->|]; [now rewrite X|reflexivity].
  - intros u U. unfold on_cur. rewrite C in *. injection U as <-. unfold upd. now rewrite Nat.eqb_refl, X.
Qed.
Lemma did_mesh : forall m, exists d', click_mesh m d = Ok d' /\ agrees d' (put_mesh m s).
Proof using A C.
  intros m. destruct at_structure as (x & X & E1 & E2). unfold click_mesh, structure_set_visibility, processing_set_axes. rewrite E1, E2. cbn.
  eexists. split; [reflexivity|]. spread A. unfold put_mesh. same.
  - intros u. unfold on_cur. rewrite assoc_alter, C. unfold upd. rewrite St. destruct (Nat.eqb_spec u t) as [->|]; [now rewrite X|reflexivity].
  - intros u. unfold on_cur. rewrite assoc_alter, C. unfold upd. rewrite Gr. destruct (Nat.eqb_spec u t) as [->|]; [now rewrite X|reflexivity].
  - intros u U. unfold on_cur. rewrite C in *. injection U as <-. unfold upd. now rewrite Nat.eqb_refl, X.
Qed.
Lemma did_mode : forall m, exists d', click_mode m d = Ok d' /\ agrees d' (put_mode m s).
Proof using A C.
  intros m. destruct at_structure as (x & X & E1 & E2). unfold click_mode, processing_set_mode. rewrite E2. cbn.
  eexists. split; [reflexivity|]. spread A. unfold put_mode. same.
  - intros u. unfold on_cur. rewrite C. unfold upd. rewrite St. destruct (Nat.eqb_spec u t) as [->|]; [now rewrite X|reflexivity].
  - intros u. unfold on_cur. rewrite assoc_alter, C. unfold upd. rewrite Gr. destruct (Nat.eqb_spec u t) as [->|]; [now rewrite X|reflexivity].
  - intros u U. unfold on_cur. rewrite C in *. injection U as <-. unfold upd. now rewrite Nat.eqb_refl, X.
Qed.
Lemma did_wires : forall w, exists d', click_wires w d = Ok d' /\ agrees d' (put_wires w s).
Proof using A C.
  intros w. unfold click_wires. eexists. split; [reflexivity|]. spread A. unfold put_wires. same.
  - intros u. rewrite St. now destruct (lk_at s u).
  - intros u. rewrite assoc_map, Gr. now destruct (lk_at s u).
  - intros u U K. apply (He u U). now destruct (lk_at s u).
Qed.
End At.

Lemma is_at_some : forall c t, is_at c t = true <-> c = Some t.
Proof.
  intros [k|] t; cbn; [|split; discriminate]. rewrite Nat.eqb_eq. split; [now intros ->|now injection 1].
Qed.

(** The scenes of a timepoint, made if they are not there. *)
Lemma did_make : forall d s t, d_open d = true -> st_board (d_structure d) = true -> pr_board (d_processing d) = true ->
  st_cur (d_structure d) = lk_cur s -> pr_cur (d_processing d) = lk_cur s ->
  st_scene (d_structure d) = option_map (fun t => (t, lk_plane s)) (lk_cur s) -> pr_scene (d_processing d) = lk_cur s ->
  st_plane (d_structure d) = lk_plane s -> pr_plane (d_processing d) = lk_plane s -> d_plane d = lk_plane s ->
  pr_axes (d_processing d) = lk_axes s -> pr_wires (d_processing d) = lk_wires s -> d_wires d = lk_wires s ->
  d_mesh d = lk_mesh s -> d_mode d = lk_mode s ->
  (forall t, assoc t (st_states (d_structure d)) = option_map (fun x => all_planes (fst x)) (lk_at s t)) ->
  (forall t, assoc t (pr_states (d_processing d)) = option_map snd (lk_at s t)) ->
  (forall t, lk_cur s = Some t -> lk_at s t <> None) ->
  exists d', make_display t d = Ok d' /\ agrees d' (put_edit t s).
Proof.
  intros d s t O B1 B2 C1 C2 S1 S2 P1 P2 P3 Ax W1 W2 Me Mo St Gr He.
  assert (V : structure_shown (d_structure d) = Ok (option_map (fun _ => fst (here s)) (lk_cur s))).
  { unfold structure_shown, here. rewrite S1. destruct (lk_cur s) as [k|] eqn:E; cbn; [|reflexivity].
    rewrite St. specialize (He k eq_refl). destruct (lk_at s k); [|now destruct He]. now destruct (lk_plane s). }
  assert (G : processing_shown (d_processing d) = Ok match lk_cur s with Some k => option_map snd (lk_at s k) | None => None end).
  { unfold processing_shown. rewrite S2. destruct (lk_cur s) as [k|] eqn:E; cbn; [|reflexivity].
    rewrite Gr. specialize (He k eq_refl). destruct (lk_at s k); [reflexivity|now destruct He]. }
  unfold make_display, structure_make, processing_make. rewrite B1, B2, V, G. cbn -[structure_show processing_show].
  eexists. split; [reflexivity|].
  assert (N : forall u, lk_at s t = None -> is_at (lk_cur s) u = true -> u <> t).
  { intros u E U ->. apply is_at_some in U. exact (He t U E). }
  assert (N' : lk_at s t = None -> is_at (lk_cur s) t = false).
  { intros E. destruct (is_at (lk_cur s) t) eqn:U; [|reflexivity]. now destruct (N t E U). }
  unfold emplace. rewrite St, Gr. unfold structure_show, processing_show. cbn. rewrite C1, C2. unfold put_edit.
  destruct (lk_at s t) as [x|] eqn:E; cbn.
  - rewrite St, Gr, E. cbn. destruct (is_at (lk_cur s) t) eqn:U; cbn; same.
    all: apply is_at_some in U; rewrite U in *; cbn in *; congruence.
  - rewrite (N' eq_refl). rewrite !assoc_snoc, Nat.eqb_refl by (rewrite ?St, ?Gr, E; reflexivity). cbn. same.
    + intros u. rewrite assoc_snoc by (rewrite St, E; reflexivity). unfold upd. destruct (u =? t); [|apply St]. cbn.
      unfold here. destruct (lk_cur s) as [k|] eqn:K; cbn; [|reflexivity]. specialize (He k eq_refl). now destruct (lk_at s k).
    + intros u. rewrite assoc_snoc by (rewrite Gr, E; reflexivity). unfold upd. destruct (u =? t); [|apply Gr]. cbn.
      unfold fresh, here. rewrite Ax, W1, P2. destruct (lk_cur s) as [k|] eqn:K; cbn; [|reflexivity]. specialize (He k eq_refl). destruct (lk_at s k); [reflexivity|now destruct He].
    + intros u U. injection U as <-. unfold upd. now rewrite Nat.eqb_refl.
Qed.

Lemma did_edit : forall d s t, agrees d s -> lk_cur s <> None -> exists d', make_display t d = Ok d' /\ agrees d' (put_edit t s).
Proof.
  intros d s t A N. spread A. destruct (lk_cur s) eqn:E; [|now destruct N]. apply did_make; rewrite ?E; try assumption; congruence.
Qed.

Lemma did_go : forall d s t, agrees d s -> lk_cur s <> None -> exists d', go_or_make_display t d = Ok d' /\ agrees d' (put_go t s).
Proof.
  intros d s t A N. unfold go_or_make_display, put_go. rewrite (ag_states _ _ A), (ag_graphs _ _ A).
  destruct (lk_at s t) as [x|] eqn:E; cbn; [|now apply did_edit].
  spread A. unfold go_display, structure_go, processing_go. rewrite C1, C2.
  destruct (is_at (lk_cur s) t) eqn:U.
  - cbn. unfold update_pressing, structure_visibility, processing_mode, at_cur. cbn. apply is_at_some in U. rewrite C1, C2, U, St, Gr, E. cbn.
    eexists. split; [reflexivity|]. rewrite U in *. same.
  - rewrite St, Gr, E. cbn. unfold structure_show, processing_show. rewrite C1, C2, U, St, Gr, E. cbn.
    unfold update_pressing, structure_visibility, processing_mode, at_cur. cbn. rewrite St, Gr, E. cbn.
    eexists. split; [reflexivity|]. same.
    destruct (lk_cur s); [exact O|now destruct N].
Qed.

Lemma did_open : forall d s r, agrees d s -> exists d', open_display r d = Ok d' /\ agrees d' (put_open r s).
Proof.
  intros d s r A. spread A. destruct r as [t|]; cbn [open_display put_open].
  - apply did_make; cbn; try assumption; try reflexivity; discriminate.
  - eexists. split; [reflexivity|]. same; try reflexivity; discriminate.
Qed.

Lemma did : forall d s a, agrees d s -> exists d', act a d = Ok d' /\ agrees d' (put a s).
Proof.
  intros d s a A. assert (O := ag_open _ _ A). assert (P := ag_dplane _ _ A).
  destruct a; unfold act, put; rewrite ?O, ?P; try (destruct (lk_cur s) as [k|] eqn:C; cbn [negb]; [|now exists d]).
  - now apply (did_plane _ _ A k).
  - now apply (did_mesh _ _ A k).
  - now apply (did_mode _ _ A k).
  - now apply (did_wires _ _ A k).
  - now apply (did_plane _ _ A k).
  - now apply (did_plane _ _ A k).
  - apply did_go; [exact A|congruence].
  - apply did_edit; [exact A|congruence].
  - now apply did_open.
Qed.

Lemma agrees0 : agrees new_display look0.
Proof. constructor; cbn; try reflexivity. discriminate. Qed.

Lemma did_all : forall l d s, agrees d s -> exists d', acts l d = Ok d' /\ agrees d' (fold_left (fun s a => put a s) l s).
Proof.
  induction l as [|a r IH]; intros d s A; cbn; [now exists d|].
  destruct (did _ _ a A) as (d' & E & A'). rewrite E. cbn. now apply IH.
Qed.

Definition looks (l : list action) : look := fold_left (fun s a => put a s) l look0.

Lemma session_looks : forall l d, session l d -> agrees d (looks l).
Proof.
  intros l d H. destruct (did_all l _ _ agrees0) as (d' & E & A). unfold session in H. rewrite E in H. now injection H as <-.
Qed.

(** ** What is seen, in terms of the small machine *)

Lemma sees_plane_at : forall d s t p m, agrees d s -> (sees_plane d t p m <-> lk_cur s = Some t /\ p = lk_plane s /\ exists g, lk_at s t = Some (m, g)).
Proof.
  intros d s t p m A. spread A. unfold sees_plane. rewrite S1, St. split.
  - intros (E & x & X & M). destruct (lk_cur s) as [k|]; [|discriminate]. injection E as -> <-. split; [reflexivity|]. split; [reflexivity|].
    destruct (lk_at s t) as [[m' g]|]; [|discriminate]. injection X as <-. exists g. destruct (lk_plane s); cbn in M; now rewrite M.
  - intros (C & -> & g & E). rewrite C, E. split; [reflexivity|]. eexists. split; [reflexivity|]. now destruct (lk_plane s).
Qed.
Lemma sees_graph_at : forall d s t g, agrees d s -> (sees_graph d t g <-> lk_cur s = Some t /\ exists m, lk_at s t = Some (m, g)).
Proof.
  intros d s t g A. spread A. unfold sees_graph. rewrite S2, Gr. split.
  - intros (E & X). split; [exact E|]. destruct (lk_at s t) as [[m g']|]; [|discriminate]. injection X as <-. now exists m.
  - intros (C & m & E). rewrite C, E. now split.
Qed.
Lemma drawn_plane_at : forall d s t p m, agrees d s -> (drawn_plane d t p m <-> exists g, lk_at s t = Some (m, g)).
Proof.
  intros d s t p m A. spread A. unfold drawn_plane. rewrite St. split.
  - intros (x & X & M). destruct (lk_at s t) as [[m' g]|]; [|discriminate]. injection X as <-. exists g. destruct p; cbn in M; now rewrite M.
  - intros (g & E). rewrite E. eexists. split; [reflexivity|]. now destruct p.
Qed.
Lemma drawn_graph_at : forall d s t g, agrees d s -> (drawn_graph d t g <-> exists m, lk_at s t = Some (m, g)).
Proof.
  intros d s t g A. spread A. unfold drawn_graph. rewrite Gr. split.
  - intros X. destruct (lk_at s t) as [[m g']|]; [|discriminate]. injection X as <-. now exists m.
  - intros (m & E). now rewrite E.
Qed.
Lemma tells_at : forall d s, agrees d s -> (buttons_tell d <-> (lk_cur s <> None -> here s = (lk_mesh s, lk_mode s))).
Proof.
  intros d s A. assert (Me := ag_mesh _ _ A). assert (Mo := ag_mode _ _ A). assert (He := ag_here _ _ A). unfold buttons_tell, here. rewrite Me, Mo. split.
  - intros H N. destruct (lk_cur s) as [t|] eqn:C; [|now destruct N]. specialize (He t eq_refl). destruct (lk_at s t) as [[m g]|] eqn:E; [|now destruct He].
    destruct (H t (lk_plane s) m g) as [-> ->]; [apply (sees_plane_at _ s); [exact A|]; now eauto|apply (sees_graph_at _ s); [exact A|]; now eauto|reflexivity].
  - intros H t p m g P G. apply (sees_plane_at _ s) in P; [|exact A]. destruct P as (C & _ & g' & E). apply (sees_graph_at _ s) in G; [|exact A]. destruct G as (_ & m' & E').
    rewrite C in *. rewrite E in E'. injection E' as <- ->. rewrite E in H. specialize (H ltac:(discriminate)). cbn in H. injection H as -> ->. now split.
Qed.

(** ** Invariants of the small machine *)

Lemma put_cur : forall a s, lk_cur (put a s) = match a, lk_cur s with
  | Open r, _ => r
  | _, None => None
  | (Go t | Edit t), Some _ => Some t
  | _, c => c
  end.
Proof.
  intros a s. unfold put, put_go, put_edit, put_open. destruct a as [| | | | | |t|t|[t|]], (lk_cur s) eqn:C; try reflexivity; try exact C; cbn; try destruct (lk_at s t); try reflexivity.
Qed.
Lemma looks_snoc : forall l a, looks (l ++ [a]) = put a (looks l).
Proof. intros l a. unfold looks. now rewrite fold_left_app. Qed.
Lemma snoc_ind : forall (P : list action -> Prop), P [] -> (forall l a, P l -> P (l ++ [a])) -> forall l, P l.
Proof. intros P H0 H1 l. apply rev_ind; auto. Qed.

Lemma looks_open : forall l, is_open l = match lk_cur (looks l) with Some _ => true | None => false end.
Proof.
  apply snoc_ind; [reflexivity|]. intros l a IH. unfold is_open in *. rewrite fold_left_app, looks_snoc, put_cur. cbn. rewrite IH.
  destruct a as [| | | | | |t|t|[t|]]; cbn; try reflexivity; now destruct (lk_cur (looks l)).
Qed.
Lemma looks_plane : forall l, fold_left choose_plane l (false, PXY) = (is_open l, lk_plane (looks l)).
Proof.
  apply snoc_ind; [reflexivity|]. intros l a IH. rewrite fold_left_app, IH, looks_snoc. cbn. unfold choose_plane. cbn [fst snd].
  assert (E : is_open (l ++ [a]) = opened a (is_open l)) by (unfold is_open; now rewrite fold_left_app). rewrite E. f_equal. rewrite (looks_open l).
  unfold put, put_go, put_edit, put_open. destruct a as [| | | | | |t|t|[t|]], (lk_cur (looks l)) eqn:C; cbn; try reflexivity; try destruct (lk_at (looks l) t); reflexivity.
Qed.
Lemma looks_wires : forall l, fold_left choose_wires l (false, CURVED) = (is_open l, lk_wires (looks l)).
Proof.
  apply snoc_ind; [reflexivity|]. intros l a IH. rewrite fold_left_app, IH, looks_snoc. cbn. unfold choose_wires. cbn [fst snd].
  assert (E : is_open (l ++ [a]) = opened a (is_open l)) by (unfold is_open; now rewrite fold_left_app). rewrite E. f_equal. rewrite (looks_open l).
  unfold put, put_go, put_edit, put_open. destruct a as [| | | | | |t|t|[t|]], (lk_cur (looks l)) eqn:C; cbn; try reflexivity; try destruct (lk_at (looks l) t); reflexivity.
Qed.

Ltac updated := unfold on_cur, upd in *.

Lemma put_graph_wires : forall a s, (forall t m g, lk_at s t = Some (m, g) -> gr_wires g = lk_wires s) ->
  forall t m g, lk_at (put a s) t = Some (m, g) -> gr_wires g = lk_wires (put a s).
Proof.
  intros a s H t m g. assert (K : forall h c, (forall x, gr_wires (snd (h x)) = gr_wires (snd x)) -> lk_cur s = Some c -> on_cur h s t = Some (m, g) -> gr_wires g = lk_wires s).
  { intros h c Hh C. unfold on_cur, upd. rewrite C. destruct (t =? c); [|apply H]. destruct (lk_at s c) as [[m' g']|] eqn:E; cbn; [|discriminate].
    injection 1 as E'. specialize (Hh (m', g')). rewrite E' in Hh. cbn in Hh. rewrite Hh. exact (H _ _ _ E). }
  unfold put, put_go, put_edit, put_open. destruct a as [| | | | | |u|u|[u|]]; try (destruct (lk_cur s) as [c|] eqn:C; [|apply H]); cbn;
    try (eapply K; [|reflexivity]; intros; reflexivity).
  - destruct (lk_at s t) as [[m' g']|]; cbn; [|discriminate]. now injection 1 as <- <-.
  - destruct (lk_at s u); cbn; [apply H|]. unfold upd. destruct (t =? u); [|apply H]. now injection 1 as <- <-.
  - destruct (lk_at s u); cbn; [apply H|]. unfold upd. destruct (t =? u); [|apply H]. now injection 1 as <- <-.
  - unfold upd. destruct (t =? u); [|discriminate]. now injection 1 as <- <-.
  - discriminate.
Qed.
Lemma looks_graph_wires : forall l t m g, lk_at (looks l) t = Some (m, g) -> gr_wires g = lk_wires (looks l).
Proof. intros l. pattern l. apply snoc_ind; clear l; [discriminate|]. intros l a IH. rewrite looks_snoc. now apply put_graph_wires. Qed.

(** The timepoints drawn are those visited. *)
Lemma looks_visited : forall l, fst (fold_left visit l (false, [])) = is_open l /\ forall t, In t (visited l) <-> lk_at (looks l) t <> None.
Proof.
  apply snoc_ind; [split; [reflexivity|]; cbn; intuition congruence|]. intros l a [IO IV]. unfold visited in *. rewrite fold_left_app, looks_snoc. cbn [fold_left]. destruct (fold_left visit l (false, [])) as [o v]. cbn [fst snd] in IO, IV. subst o.
  assert (E : is_open (l ++ [a]) = opened a (is_open l)) by (unfold is_open; now rewrite fold_left_app). split; [cbn; now rewrite E|].
  intros t. unfold visit. cbn [fst snd]. rewrite looks_open.
  assert (K : forall h, on_cur h (looks l) t <> None <-> lk_at (looks l) t <> None).
  { intros h. unfold on_cur, upd. destruct (lk_cur (looks l)) as [c|]; [|reflexivity]. destruct (Nat.eqb_spec t c) as [->|]; [|reflexivity]. destruct (lk_at (looks l) c); cbn; intuition discriminate. }
  assert (K' : forall u, lk_at (looks l) u <> None -> (u = t \/ In t v <-> lk_at (looks l) t <> None)).
  { intros u U. rewrite IV. split; [intros [<-|]; assumption|now right]. }
  assert (Q : forall u (x : visibility * graph), u = t \/ In t v <-> upd (lk_at (looks l)) u (Some x) t <> None).
  { intros u x. rewrite IV. unfold upd. destruct (Nat.eqb_spec t u) as [->|N]; [split; [discriminate|now left]|]. split; [intros [->|]; [now destruct N|assumption]|now right]. }
  unfold put, put_go, put_edit, put_open. destruct a as [| | | | | |u|u|[u|]]; try (destruct (lk_cur (looks l)) as [c|] eqn:C; [|apply IV]); cbn; rewrite ?K; try apply IV.
  - rewrite IV. destruct (lk_at (looks l) t); cbn; intuition discriminate.
  - destruct (lk_at (looks l) u) eqn:U; cbn; [apply K'; congruence|apply Q].
  - destruct (lk_at (looks l) u) eqn:U; cbn; [apply K'; congruence|apply Q].
  - unfold upd. destruct (Nat.eqb_spec t u) as [->|N]; [split; [discriminate|now left]|]. split; [intros [->|[]]; now destruct N|now destruct 1].
  - split; [intros []|now destruct 1].
Qed.

(** *** Buttons *)
Definition tells (s : look) : Prop := lk_cur s <> None -> here s = (lk_mesh s, lk_mode s).
Definition full_look (s : look) : Prop := forall t, lk_cur s = Some t -> lk_at s t <> None.
Lemma put_full : forall a s, full_look s -> full_look (put a s).
Proof.
  intros a s H t. rewrite put_cur. unfold full_look in H. assert (K : forall h c, lk_cur s = Some c -> Some c = Some t -> on_cur h s t <> None).
  { intros h c C E. injection E as ->. unfold on_cur, upd. rewrite C, Nat.eqb_refl. specialize (H t C). destruct (lk_at s t); [discriminate|now destruct H]. }
  unfold put, put_go, put_edit, put_open. destruct a as [| | | | | |u|u|[u|]]; try (destruct (lk_cur s) as [c|] eqn:C; [|discriminate]); cbn; try (eapply K; reflexivity).
  - intros E. injection E as ->. specialize (H t eq_refl). destruct (lk_at s t); [discriminate|now destruct H].
  - intros E. injection E as ->. destruct (lk_at s t) eqn:U; cbn; [congruence|]. unfold upd. now rewrite Nat.eqb_refl.
  - intros E. injection E as ->. destruct (lk_at s t) eqn:U; cbn; [congruence|]. unfold upd. now rewrite Nat.eqb_refl.
  - intros E. injection E as ->. unfold upd. now rewrite Nat.eqb_refl.
  - discriminate.
Qed.
Lemma looks_full : forall l, full_look (looks l).
Proof. apply snoc_ind; [discriminate|]. intros l a IH. rewrite looks_snoc. now apply put_full. Qed.

Lemma put_tells : forall a s, full_look s -> tells s -> (forall r, a <> Open r) -> (forall t, a = Edit t -> lk_at s t = None) -> tells (put a s).
Proof.
  intros a s F H NO NE N. specialize (F). unfold tells in H.
  assert (K : lk_cur s <> None -> exists c x, lk_cur s = Some c /\ lk_at s c = Some x /\ (fst x, gr_mode (snd x)) = (lk_mesh s, lk_mode s)).
  { intros C. specialize (H C). unfold here in H. destruct (lk_cur s) as [c|] eqn:E; [|now destruct C]. specialize (F c E). destruct (lk_at s c) as [x|] eqn:X; [|now destruct F]. exists c, x. now repeat split. }
  rewrite put_cur in N. destruct (lk_cur s) as [c|] eqn:C; [|destruct a; try (now destruct N); now destruct (NO r)].
  destruct (K ltac:(discriminate)) as (c' & x & E & X & M). injection E as <-. injection M as M1 M2.
  unfold here, put, put_go, put_edit. rewrite C. destruct a as [p|m|m|w| | |u|u|r]; cbn; unfold on_cur, upd; rewrite ?C, ?Nat.eqb_refl, ?X; cbn; try congruence.
  - destruct (lk_at s u) eqn:U; cbn; [now rewrite U|]. rewrite Nat.eqb_refl. unfold here. rewrite C, X. cbn. congruence.
  - rewrite (NE u eq_refl). cbn. rewrite Nat.eqb_refl. unfold here. rewrite C, X. cbn. congruence.
  - now destruct (NO r).
Qed.

(** *** The two views *)
Lemma looks_axes : forall l, fst (fold_left choose_mesh l (false, FULL)) = is_open l /\ forall v, lk_axes (looks l) v = graph_axes (chosen_mesh l) v.
Proof.
  apply snoc_ind; [split; [reflexivity|]; intros []; reflexivity|]. intros l a [IO IV]. unfold chosen_mesh in *. rewrite fold_left_app, looks_snoc. cbn [fold_left].
  destruct (fold_left choose_mesh l (false, FULL)) as [o x]. cbn [fst snd] in IO, IV. subst o. unfold choose_mesh. cbn [fst snd].
  assert (E : is_open (l ++ [a]) = opened a (is_open l)) by (unfold is_open; now rewrite fold_left_app). rewrite E. split; [reflexivity|]. intros v. rewrite (looks_open l).
  unfold put, put_go, put_edit, put_open. destruct a as [| | | | | |t|t|[t|]], (lk_cur (looks l)) eqn:C; cbn; try apply IV; try destruct (lk_at (looks l) t); try apply IV; reflexivity.
Qed.
Lemma looks_cur : forall l t, lk_cur (looks l) = Some t -> exists r, visited l = t :: r.
Proof.
  intros l. pattern l. apply snoc_ind; clear l; [discriminate|]. intros l a IH t. rewrite looks_snoc, put_cur. destruct (looks_visited l) as [IO _]. unfold visited in *. rewrite fold_left_app. cbn [fold_left].
  destruct (fold_left visit l (false, [])) as [o v]. cbn [fst snd] in *. subst o. unfold visit. cbn [fst snd]. rewrite looks_open.
  destruct a as [| | | | | |u|u|[u|]]; try (destruct (lk_cur (looks l)) as [c|] eqn:C; [|discriminate]); try exact (IH t); try discriminate; injection 1 as ->; now eexists.
Qed.

Definition stepped (s : look) : Prop := forall t, lk_cur s = Some t ->
  exists m g, lk_at s t = Some (m, g) /\ gr_plane g = lk_plane s /\ (forall v, gr_axes g v = graph_axes m v) /\ (forall v, lk_axes s v = graph_axes m v).

Lemma put_stepped : forall a s, stepped s -> (forall r, a <> Open r) -> (forall t, a = Edit t \/ a = Go t -> lk_at s t = None) -> stepped (put a s).
Proof.
  intros a s H NO NE t. rewrite put_cur. unfold stepped in H.
  destruct (lk_cur s) as [c|] eqn:C; [|destruct a; try discriminate; now destruct (NO r)].
  destruct (H c eq_refl) as (m & g & E & P & A1 & A2).
  assert (F : forall u : nat, exists m' g', upd (lk_at s) u (Some (fresh s (here s))) u = Some (m', g') /\ gr_plane g' = lk_plane s /\ (forall v, gr_axes g' v = graph_axes m' v) /\ (forall v, lk_axes s v = graph_axes m' v)).
  { intros u. unfold upd. rewrite Nat.eqb_refl. unfold fresh, here. rewrite C, E. cbn. do 2 eexists. split; [reflexivity|]. cbn. now repeat split. }
  unfold put, put_go, put_edit. rewrite C. destruct a as [p|x|x|w| | |u|u|r]; [..|now destruct (NO r)]; injection 1 as <-; cbn -[fresh here];
    try (unfold on_cur, upd; rewrite C, Nat.eqb_refl, E; cbn; do 2 eexists; split; [reflexivity|]; cbn; now repeat split).
  - rewrite E. cbn. do 2 eexists. split; [reflexivity|]. cbn. now repeat split.
  - rewrite (NE u (or_intror eq_refl)). apply F.
  - rewrite (NE u (or_introl eq_refl)). apply F.
Qed.

Lemma clicked_stepped : forall m p s, full_look s -> lk_cur s <> None -> stepped (put (ClickPlane p) (put (ClickMesh m) s)).
Proof.
  intros m p s F N t. unfold put. destruct (lk_cur s) as [c|] eqn:C; [|now destruct N]. cbn. rewrite C. cbn. rewrite C. injection 1 as <-.
  specialize (F c C). destruct (lk_at s c) as [[m0 g0]|] eqn:E; [|now destruct F].
  unfold on_cur, upd. cbn. rewrite C, Nat.eqb_refl. unfold on_cur, upd. rewrite C, Nat.eqb_refl, E. cbn. do 2 eexists. split; [reflexivity|]. cbn. now repeat split.
Qed.

Lemma onward_stepped : forall l2 l1, onward (visited l1) l2 -> is_open l1 = true -> stepped (looks l1) -> stepped (looks (l1 ++ l2)).
Proof.
  induction l2 as [|a r IH]; intros l1 O Op H; [now rewrite app_nil_r|]. replace (l1 ++ a :: r) with ((l1 ++ [a]) ++ r) by now rewrite <- app_assoc.
  destruct (looks_visited l1) as [IO V]. assert (E : visited (l1 ++ [a]) = snd (visit (is_open l1, visited l1) a)).
  { unfold visited. rewrite fold_left_app. cbn [fold_left]. rewrite <- IO. now destruct (fold_left visit l1 (false, [])). }
  assert (Op' : (forall r, a <> Open r) -> is_open (l1 ++ [a]) = true).
  { intros N. unfold is_open in *. rewrite fold_left_app. cbn. rewrite Op. destruct a; try reflexivity. now destruct (N r0). }
  assert (NO : forall r, a <> Open r) by (intros x ->; exact O). apply IH; [|now apply Op'|].
  - rewrite E, Op. destruct a; cbn in *; try exact O; try apply O. destruct O.
  - rewrite looks_snoc. apply put_stepped; [exact H|exact NO|]. intros t T. destruct (lk_at (looks l1) t) eqn:L; [|reflexivity].
    assert (I : In t (visited l1)) by (apply V; congruence). destruct T as [-> | ->]; cbn in O; now destruct O as [O _].
Qed.

Lemma edits_tells : forall l2 l1, edits (visited l1) l2 -> no_open l2 -> is_open l1 = true -> tells (looks l1) -> tells (looks (l1 ++ l2)).
Proof.
  induction l2 as [|a r IH]; intros l1 O NO Op H; [now rewrite app_nil_r|]. replace (l1 ++ a :: r) with ((l1 ++ [a]) ++ r) by now rewrite <- app_assoc.
  destruct (looks_visited l1) as [IO V]. assert (E : visited (l1 ++ [a]) = snd (visit (is_open l1, visited l1) a)).
  { unfold visited. rewrite fold_left_app. cbn [fold_left]. rewrite <- IO. now destruct (fold_left visit l1 (false, [])). }
  assert (N : forall r, a <> Open r) by (intros x ->; apply (NO x); now left). apply IH.
  - rewrite E, Op. destruct a; cbn in *; try exact O; try apply O. now destruct (N r0).
  - intros x I. apply (NO x). now right.
  - unfold is_open in *. rewrite fold_left_app. cbn. rewrite Op. destruct a; try reflexivity. now destruct (N r0).
  - rewrite looks_snoc. apply put_tells; [apply looks_full|exact H|exact N|]. intros t ->. cbn in O. destruct O as [O _].
    destruct (lk_at (looks l1) t) eqn:L; [|reflexivity]. destruct O. apply V. congruence.
Qed.

(** Nothing happens before a file is opened. *)
Lemma looks_before : forall a, (forall t, ~ In (Open (Some t)) a) -> looks a = look0 \/ looks a = put (Open None) look0.
Proof.
  apply (snoc_ind (fun a => (forall t, ~ In (Open (Some t)) a) -> looks a = look0 \/ looks a = put (Open None) look0)); [now left|].
  intros l a IH H. rewrite looks_snoc. destruct IH as [-> | ->]; [intros t I; apply (H t); apply in_app_iff; now left|..];
  destruct a as [| | | | | |u|u|[u|]]; cbn; auto; destruct (H u); apply in_app_iff; right; now left.
Qed.

Lemma stepped_in_step : forall d s t p m g, agrees d s -> stepped s -> sees_plane d t p m -> sees_graph d t g -> in_step p m g.
Proof.
  intros d s t p m g A H P G. apply (sees_plane_at _ s) in P; [|exact A]. destruct P as (C & -> & g' & E). apply (sees_graph_at _ s) in G; [|exact A]. destruct G as (_ & m' & E').
  rewrite E in E'. injection E' as <- <-. destruct (H t C) as (m'' & g'' & E' & Pl & Ax & _). rewrite E in E'. injection E' as <- <-. split.
  - intros q. unfold plane_frame. rewrite Pl. destruct (lk_plane s), q; split; intros; try reflexivity; discriminate.
  - intros ax. unfold axis_frame, lines_visible. rewrite Pl. destruct (lk_plane s), ax; cbn; rewrite ?Ax; destruct m; cbn; split; intros; try reflexivity; try discriminate; intuition discriminate.
Qed.
