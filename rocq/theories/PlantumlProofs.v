(** Proofs about the state diagram: its states. *)
From Coq Require Import String List Arith Bool QArith Lia Permutation.
From Verif Require Import IntervalModel ManagerModel ManagerSpec ManagerProofs ManagerSafetyProofs GeomModel BoardModel BoardSpec EditModel.
From Verif Require Import SceneModel SceneSpec SceneProofs SceneValidProofs SceneOnceProofs PlantumlModel PlantumlSpec.
Import ListNotations.
Local Open Scope nat_scope.
Local Open Scope list_scope.

(** ** Lists of pieces *)

Lemma collect_each {A B} (f : A -> run B) l : forall r, collect f l = Done r -> Forall2 (fun x y => f x = Done y) l r.
Proof.
  induction l as [|x l IH]; cbn; intros r H; [injection H as <-; constructor|]. apply bind_done in H. destruct H as (y & Y & H). apply bind_done in H. destruct H as (t & T & H).
  injection H as <-. constructor; auto.
Qed.
Lemma collect_all {A B} (f : A -> run B) l : (forall x, In x l -> exists y, f x = Done y) -> exists r, collect f l = Done r.
Proof.
  induction l as [|x l IH]; intros H; cbn; [eauto|]. destruct (H x (or_introl eq_refl)) as (y & ->). cbn. destruct IH as (r & ->); [intros z Z; apply H; now right|]. cbn. eauto.
Qed.

(** ** Reading *)

Definition inside (st : list name) (d : declared) : declared := (fst d, snd d ++ st).
(** The piece [l] opens and closes what it opens, and declares [ds]. *)
Definition gives (l : list stmt) (ds : list declared) : Prop :=
  forall st r, outline (l ++ r) st = option_map (fun x => map (inside st) ds ++ x) (outline r st).

Lemma gives_nil : gives [] [].
Proof. intros st r. cbn. destruct (outline r st); reflexivity. Qed.
Lemma gives_app l r ds es : gives l ds -> gives r es -> gives (l ++ r) (ds ++ es).
Proof.
  intros L R st t. rewrite <- app_assoc, L, R. destruct (outline t st); cbn; [|reflexivity]. now rewrite map_app, <- app_assoc.
Qed.
Lemma gives_field x t l ds : gives l ds -> gives (Field x t :: l) ds.
Proof. intros G st r. cbn. apply G. Qed.
Lemma gives_arrow f s t u l ds : gives l ds -> gives (Arrow f s t u :: l) ds.
Proof. intros G st r. cbn. apply G. Qed.
Lemma gives_pin x q l ds : gives l ds -> gives (Pin x q :: l) ((Pin_name x q, []) :: ds).
Proof. intros G st r. cbn. rewrite G. destruct (outline r st); reflexivity. Qed.
Lemma gives_block lab n c l ds : gives l ds -> gives (Open lab n c :: l ++ [Close]) ((n, []) :: map (inside [n]) ds).
Proof.
  intros G st r. cbn. rewrite <- app_assoc, G. cbn. destruct (outline r st) as [x|]; [|reflexivity]. cbn. rewrite map_map.
  rewrite (map_ext (inside (n :: st)) (fun y => inside st (inside [n] y))); [reflexivity|]. intros [m fr]. unfold inside. cbn. now rewrite <- app_assoc.
Qed.
Lemma gives_outline l ds : gives l ds -> outline l [] = Some ds.
Proof.
  intros G. specialize (G [] []). rewrite app_nil_r in G. rewrite G. cbn. rewrite app_nil_r. f_equal. rewrite <- (map_id ds) at 2. apply map_ext. intros [m fr]. unfold inside. cbn. now rewrite app_nil_r.
Qed.
Lemma gives_concat ls : forall dss, Forall2 gives ls dss -> gives (concat ls) (concat dss).
Proof. induction ls as [|l ls IH]; intros dss F; inversion F; subst; cbn; [apply gives_nil|]. apply gives_app; auto. Qed.
Lemma gives_arrows l : Forall (fun s => match s with Arrow _ _ _ _ | Field _ _ => True | _ => False end) l -> gives l [].
Proof. induction 1 as [|[] l H F IH]; try contradiction; [apply gives_nil|now apply gives_field|now apply gives_arrow]. Qed.

(** Names of a piece. *)
Definition names (ds : list declared) : list name := map fst ds.
Lemma names_inside st ds : names (map (inside st) ds) = names ds.
Proof. unfold names. rewrite map_map. reflexivity. Qed.

(** ** The states of each object *)

Section States.
Context (named : nat -> string) (srt : sort_by) (b : board) (k : links) (Pm : permutes srt).

Definition pins_of (x : entity) : list pin :=
  match x with
  | EPolygon _ => [Output]
  | EColinear _ _ | EClose _ _ | EPolicy _ _ => [Input; Output]
  | EInPolygon p i =>
      match nth_error (on_plane (b_eip b) p) i with Some c => Output :: map Input_no (seq 0 (length (ei_overlaps c))) | None => [] end
  | EInterval _ _ => [Input_no 1; Input_no 2; Output]
  | _ => []
  end.
Definition own (x : entity) : list declared := (Whole x, []) :: map (fun q => (Pin_name x q, [Whole x])) (pins_of x).

Lemma edge_gives i l : edge_lines b i = Done l -> gives l (own (EEdge i)).
Proof.
  intros H. apply bind_done in H. destruct H as (e & _ & H). injection H as <-. apply (gives_block _ _ _ [_; _] []). now apply gives_arrows; repeat constructor.
Qed.

Lemma gives_own lab x c l ds : gives l (map (fun q => (Pin_name x q, [])) (pins_of x) ++ ds) ->
  gives (Open lab (Whole x) c :: l ++ [Close]) (own x ++ map (inside [Whole x]) ds).
Proof. intros G. apply (gives_block lab (Whole x) c) in G. rewrite map_app, map_map in G. exact G. Qed.
Lemma gives_whole lab x c l : gives l (map (fun q => (Pin_name x q, [])) (pins_of x)) -> gives (Open lab (Whole x) c :: l ++ [Close]) (own x).
Proof. intros G. rewrite <- (app_nil_r (own x)). apply (gives_own lab x c l []). now rewrite app_nil_r. Qed.

Lemma two_arrows (l r : list stmt) ds : gives l ds -> gives r [] -> gives (l ++ r) ds.
Proof. intros L R. rewrite <- (app_nil_r ds). now apply gives_app. Qed.
Lemma maybe_arrows (f : nat -> stmt) x : (forall j, exists a s t r, f j = Arrow a s t r) -> Forall (fun s => match s with Arrow _ _ _ _ | Field _ _ => True | _ => False end) (map f (maybe x)).
Proof. intros H. destruct x as [j|]; cbn; [|constructor]. constructor; [|constructor]. destruct (H j) as (a & s & t & r & ->). exact I. Qed.

Definition polygon_ds (i : nat) : list declared :=
  match nth_error (b_polygons b) i with
  | Some g => own (EPolygon i) ++ map (inside [Whole (EPolygon i)]) (flat_map own (map EEdge (g_edges g)))
  | None => []
  end.
Lemma forall2_map {A B C} (R : B -> C -> Prop) (f : A -> C) l r : Forall2 (fun x y => R y (f x)) l r -> Forall2 R r (map f l).
Proof. induction 1; cbn; constructor; auto. Qed.
Lemma forall2_mono {A B} (R S : A -> B -> Prop) l r : (forall x y, In x l -> R x y -> S x y) -> Forall2 R l r -> Forall2 S l r.
Proof. intros H F. induction F; constructor; [apply H; [now left|assumption]|]. apply IHF. intros; apply H; [now right|assumption]. Qed.
Lemma collected {A} (f : A -> run (list stmt)) (g : A -> list declared) l r : (forall x y, In x l -> f x = Done y -> gives y (g x)) -> collect f l = Done r -> gives (concat r) (flat_map g l).
Proof.
  intros H C. apply collect_each in C. rewrite flat_map_concat_map. apply gives_concat. apply forall2_map. revert C. apply forall2_mono. exact H.
Qed.
Lemma collected_map {A} (f : A -> run (list stmt)) (h : A -> entity) l r : (forall x y, In x l -> f x = Done y -> gives y (own (h x))) -> collect f l = Done r -> gives (concat r) (flat_map own (map h l)).
Proof.
  intros H C. replace (flat_map own (map h l)) with (flat_map (fun x => own (h x)) l); [now apply (collected f)|]. clear. induction l; cbn; congruence.
Qed.

Lemma polygon_gives i l : polygon_lines named b i = Done l -> gives l (polygon_ds i).
Proof.
  intros H. unfold polygon_lines in H. apply bind_done in H. destruct H as (g & R & H). apply read_some in R. cbn zeta in H. apply bind_done in H. destruct H as (es & C & H). injection H as <-.
  unfold polygon_ds. rewrite R. cbn [app]. match goal with |- gives (?o :: ?p :: ?f :: ?e ++ [Close]) _ => change (gives (o :: (p :: f :: e) ++ [Close]) (own (EPolygon i) ++ map (inside [Whole (EPolygon i)]) (flat_map own (map EEdge (g_edges g))))) end.
  apply gives_own. cbn [pins_of map app]. apply gives_pin, gives_field. apply (collected_map (edge_lines b)); [|exact C]. intros j y _. apply edge_gives.
Qed.

Lemma colinear_gives a i l : colinear_lines b a i = Done l -> gives l (own (EColinear a i)).
Proof.
  intros H. unfold colinear_lines in H. apply bind_done in H. destruct H as (c & R & H). cbn zeta in H. apply bind_done in H. destruct H as (es & C & H). apply bind_done in H. destruct H as (so & So & H). injection H as <-.
  cbn [app]. match goal with |- gives (?o :: ?p :: ?f :: concat es ++ so ++ [Close]) _ => replace (o :: p :: f :: concat es ++ so ++ [Close]) with (o :: (p :: f :: concat es ++ so) ++ [Close]) by (cbn; now rewrite <- app_assoc) end.
  apply gives_whole. cbn [pins_of map]. apply gives_pin, gives_pin. apply two_arrows.
  - assert (G : gives (concat es) (flat_map (fun _ => []) (ce_edges c))).
    { apply (collected _ (fun _ => []) _ _) in C; [exact C|]. intros j y _ E. apply bind_done in E. destruct E as (e & _ & E). injection E as <-. apply gives_arrows. repeat constructor. }
    assert (N : flat_map (fun _ : nat => @nil declared) (ce_edges c) = []) by (clear; induction (ce_edges c); cbn; auto). rewrite N in G. exact G.
  - destruct (ce_policy c) as [j|]; [|injection So as <-; apply gives_nil]. apply bind_done in So. destruct So as (p & _ & So). injection So as <-. apply gives_arrows. repeat constructor.
Qed.

Lemma close_gives a i l : close_lines b a i = Done l -> gives l (own (EClose a i)).
Proof.
  intros H. unfold close_lines in H. apply bind_done in H. destruct H as (c & R & H). cbn zeta in H. injection H as <-. cbn [app map].
  match goal with |- gives (?o :: ?p :: ?f :: ?x :: ?y :: ?z ++ [Close]) _ => change (gives (o :: (p :: f :: x :: y :: z) ++ [Close]) (own (EClose a i))) end.
  apply gives_whole. cbn [pins_of map]. apply gives_pin, gives_pin, gives_arrow, gives_arrow, gives_arrows, maybe_arrows. eauto.
Qed.

Lemma policy_gives a i l : policy_lines b k a i = Done l -> gives l (own (EPolicy a i)).
Proof.
  intros H. unfold policy_lines in H. apply bind_done in H. destruct H as (c & R & H). cbn zeta in H. injection H as <-. cbn [app].
  match goal with |- gives (?o :: ?p :: ?f :: ?x :: ?y :: ?z :: ?t :: ?u ++ [Close]) _ => change (gives (o :: (p :: f :: x :: y :: z :: t :: u) ++ [Close]) (own (EPolicy a i))) end.
  apply gives_whole. cbn [pins_of map]. apply gives_pin, gives_pin, gives_field, gives_field, gives_field, gives_field, gives_arrows.
  destruct (lk_origins k a i) as [|[] [|]]; repeat constructor.
Qed.

Lemma interval_gives a i l : interval_lines b a i = Done l -> gives l (own (EInterval a i)).
Proof.
  intros H. unfold interval_lines in H. apply bind_done in H. destruct H as (c & R & H). cbn zeta in H. injection H as <-.
  match goal with |- gives [?o; ?p; ?f; ?x; ?y; ?z; ?t; ?u; ?v; ?w; ?q; Close] _ => change (gives (o :: [p; f; x; y; z; t; u; v; w; q] ++ [Close]) (own (EInterval a i))) end.
  apply gives_whole. cbn [pins_of map]. apply gives_pin, gives_pin, gives_pin, gives_arrows. repeat constructor.
Qed.

Lemma meshline_gives a i l : meshline_lines b k a i = Done l -> gives l (own (ELine a i)).
Proof.
  intros H. unfold meshline_lines in H. apply bind_done in H. destruct H as (c & R & H). cbn zeta in H. injection H as <-. cbn [app].
  match goal with |- gives (?o :: ?p :: ?x ++ ?y ++ [Close]) _ => replace (o :: p :: x ++ y ++ [Close]) with (o :: (p :: x ++ y) ++ [Close]) by (cbn; now rewrite <- app_assoc) end.
  apply gives_whole. cbn [pins_of map]. apply gives_field, two_arrows; apply gives_arrows, maybe_arrows; eauto.
Qed.

Lemma in_polygon_gives p i l : in_polygon_lines b p i = Done l -> gives l (own (EInPolygon p i)).
Proof.
  intros H. unfold in_polygon_lines in H. apply bind_done in H. destruct H as (c & R & H). apply read_some in R. apply bind_done in H. destruct H as (e & Re & H). cbn zeta in H. injection H as <-. cbn [app].
  match goal with |- gives (?o :: ?q :: ?f :: ?x :: ?z ++ [Close]) _ => change (gives (o :: (q :: f :: x :: z) ++ [Close]) (own (EInPolygon p i))) end.
  apply gives_whole. cbn [pins_of]. rewrite R. cbn [map]. apply gives_pin, gives_arrow, gives_arrow. unfold numbered. rewrite map_map. generalize 0. induction (ei_overlaps c) as [|o r IH]; intros s; cbn [length seq combine flat_map map]; [apply gives_nil|].
  cbn [app]. apply gives_pin, gives_arrow. change (gives (map (fun j => Arrow (Whole (EEdge j)) plain_arrow (Pin_name (EInPolygon p i) (Input_no s)) ""%string) (maybe (ov_edge o)) ++ flat_map (fun o0 : Overlap * nat =>
    [Pin (EInPolygon p i) (Input_no (snd o0)); Arrow (Pin_name (EPolygon (ov_polygon (fst o0))) Output) plain_arrow (Pin_name (EInPolygon p i) (Input_no (snd o0))) ""%string] ++
    map (fun j => Arrow (Whole (EEdge j)) plain_arrow (Pin_name (EInPolygon p i) (Input_no (snd o0))) ""%string) (maybe (ov_edge (fst o0)))) (combine r (seq (S s) (length r))))
    ([] ++ map (fun x => (Pin_name (EInPolygon p i) (Input_no x), [])) (seq (S s) (length r)))).
  apply gives_app; [apply gives_arrows, maybe_arrows; eauto|apply IH].
Qed.

Definition plane_ds (p : Plane) : list declared :=
  (Plane_name p, []) :: map (inside [Plane_name p])
    (flat_map polygon_ds (polygons_of b p) ++ flat_map own (map (EInPolygon p) (seq 0 (length (on_plane (b_eip b) p))))).
Lemma plane_gives p l : plane_lines named b p = Done l -> gives l (plane_ds p).
Proof.
  intros H. unfold plane_lines in H. apply bind_done in H. destruct H as (ps & P & H). apply bind_done in H. destruct H as (cs & C & H). injection H as <-. cbn [app]. rewrite app_assoc.
  apply gives_block. apply gives_app.
  - apply (collected _ polygon_ds _ _ (fun i y _ => polygon_gives i y) P).
  - apply (collected_map _ _ _ _ (fun i y _ => in_polygon_gives p i y) C).
Qed.

Definition less_coord (a : Axis3) (i j : nat) : bool :=
  match nth_error (ax_policies (on_axis (b_axes b) a)) i, nth_error (ax_policies (on_axis (b_axes b) a)) j with
  | Some p, Some q => Qltb (p_coord p) (p_coord q)
  | _, _ => false
  end.
Definition sorted_policies (a : Axis3) : list nat := srt _ (less_coord a) (seq 0 (length (ax_policies (on_axis (b_axes b) a)))).
Definition axis_things (a : Axis3) : list entity :=
  map (EPolicy a) (sorted_policies a) ++ map (EInterval a) (seq 0 (length (ax_segments (on_axis (b_axes b) a))))
  ++ map (ELine a) (seq 0 (length (ax_lines (on_axis (b_axes b) a)))) ++ map (EColinear a) (seq 0 (length (on_axis (b_ce b) a)))
  ++ map (EClose a) (seq 0 (length (ax_conflicts (on_axis (b_axes b) a)))).
Definition axis_ds (a : Axis3) : list declared := (Axis_name a, []) :: map (inside [Axis_name a]) (flat_map own (axis_things a)).
Lemma axis_gives a l : axis_lines srt b k a = Done l -> gives l (axis_ds a).
Proof.
  intros H. unfold axis_lines in H. cbn zeta in H. apply bind_done in H. destruct H as (ps & P & H). apply bind_done in H. destruct H as (is & Iv & H). apply bind_done in H. destruct H as (ms & M & H).
  apply bind_done in H. destruct H as (cs & C & H). apply bind_done in H. destruct H as (ts & T & H). injection H as <-. cbn [app]. rewrite !app_assoc. apply gives_block. rewrite <- !app_assoc.
  unfold axis_things. rewrite !flat_map_app. repeat apply gives_app.
  - apply (collected_map _ _ _ _ (fun i y _ => policy_gives a i y) P).
  - apply (collected_map _ _ _ _ (fun i y _ => interval_gives a i y) Iv).
  - apply (collected_map _ _ _ _ (fun i y _ => meshline_gives a i y) M).
  - apply (collected_map _ _ _ _ (fun i y _ => colinear_gives a i y) C).
  - apply (collected_map _ _ _ _ (fun i y _ => close_gives a i y) T).
Qed.

Definition all_ds : list declared := flat_map plane_ds all_planes ++ flat_map axis_ds all_axes.
Lemma plantuml_gives doc : plantuml named srt b k = Done doc -> exists body, doc = Start :: body ++ [Finish] /\ gives body all_ds.
Proof.
  intros H. unfold plantuml in H. apply bind_done in H. destruct H as (ps & P & H). apply bind_done in H. destruct H as (xs & X & H). injection H as <-. exists (concat ps ++ concat xs). split; [cbn; now rewrite <- app_assoc|].
  apply gives_app.
  - apply (collected _ plane_ds _ _ (fun p y _ => plane_gives p y) P).
  - apply (collected _ axis_ds _ _ (fun p y _ => axis_gives p y) X).
Qed.
End States.
