From Coq Require Import List Arith Bool Lia Relations.Relation_Operators.
From Verif Require Import IntervalModel ManagerModel ManagerProofs GeomModel BoardModel BoardSpec SceneModel SceneSpec SceneProofs SceneWalkProofs SelectModel SelectSpec.
Import ListNotations.
Open Scope nat_scope.

(** * Frames *)

Definition in_place (b : board) (ns : list node) (i : nat) (nd : node) : Prop :=
  match nd_what nd with
  | Thing x => exists m nm, nd_inside nd = Some m /\ m < i /\ nth_error ns m = Some nm /\ belongs_in b x (nd_what nm)
  | _ => nd_inside nd = None
  end.
Definition placed (b : board) (ns : list node) : Prop := forall i nd, nth_error ns i = Some nd -> in_place b ns i nd.

Lemma in_place_more b ns r i nd : in_place b ns i nd -> in_place b (ns ++ r) i nd.
Proof.
  unfold in_place. destruct (nd_what nd); auto. intros (m & nm & I & L & E & B). exists m, nm. repeat (split; [assumption|]). split; [|exact B].
  rewrite nth_error_app1; [exact E|]. now apply nth_lt in E.
Qed.
Lemma placed_snoc b ns nd : placed b ns -> in_place b ns (length ns) nd -> placed b (ns ++ [nd]).
Proof.
  intros P N i x E. apply in_place_more. destruct (Nat.lt_ge_cases i (length ns)) as [L|L].
  - rewrite nth_error_app1 in E by exact L. now apply P.
  - rewrite nth_error_app2 in E by exact L. destruct (i - length ns) as [|j] eqn:J; cbn in E; [|destruct j; discriminate]. injection E as <-.
    replace i with (length ns) by lia. exact N.
Qed.
Lemma placed_things b k here nm l : forall ns ns', for_each (add_thing b k here) l ns = Done ns' -> placed b ns -> nth_error ns here = Some nm ->
  (forall x, In x l -> belongs_in b x (nd_what nm)) -> placed b ns' /\ exists r, ns' = ns ++ r.
Proof.
  induction l as [|x l IH]; cbn [for_each]; intros ns ns' H P N B.
  - injection H as <-. split; [exact P|]. exists []. now rewrite app_nil_r.
  - apply bind_done in H. destruct H as (n1 & H1 & H). unfold add_thing in H1. apply bind_done in H1. destruct H1 as (tw & _ & H1). injection H1 as <-.
    destruct (IH _ _ H) as (P' & r & ->).
    + apply placed_snoc; [exact P|]. unfold in_place. cbn. exists here, nm. split; [reflexivity|]. split; [now apply nth_lt in N|]. split; [exact N|]. apply B. now left.
    + rewrite nth_error_app1; [exact N|now apply nth_lt in N].
    + intros y Y. apply B. now right.
    + split; [exact P'|]. rewrite <- app_assoc. now eexists.
Qed.
Lemma last_here {A} (l : list A) x : nth_error (l ++ [x]) (length l) = Some x.
Proof. rewrite nth_error_app2, Nat.sub_diag by lia. reflexivity. Qed.
Lemma nth_more {A} (l r : list A) i x : nth_error l i = Some x -> nth_error (l ++ r) i = Some x.
Proof. intros E. rewrite nth_error_app1; [exact E|]. now apply nth_lt in E. Qed.
Lemma placed_polygons b k here nm p l : (forall i, In i l -> In i (polygons_of b p)) -> nd_what nm = Plane_ p -> forall ns ns', for_each (add_polygon_node b k here) l ns = Done ns' -> placed b ns ->
  nth_error ns here = Some nm -> placed b ns' /\ exists r, ns' = ns ++ r.
Proof.
  intros Of W. revert Of. induction l as [|i l IH]; cbn [for_each]; intros Of ns ns' H P N.
  - injection H as <-. split; [exact P|]. exists []. now rewrite app_nil_r.
  - apply bind_done in H. destruct H as (n1 & H1 & H). unfold add_polygon_node in H1. apply bind_done in H1. destruct H1 as (g & R & H1). apply read_some in R.
    apply bind_done in H1. destruct H1 as (n0 & A & H1). unfold add_thing in A. apply bind_done in A. destruct A as (tw & _ & A). injection A as <-.
    assert (Gp : g_plane g = p) by (specialize (Of i (or_introl eq_refl)); apply polygons_of_spec in Of; destruct Of as (g' & E & G); congruence).
    destruct (placed_things b k (length ns) (mk_node (Thing (EPolygon i)) (Some here) tw) _ _ _ H1) as (P1 & r1 & ->).
    + apply placed_snoc; [exact P|]. unfold in_place. cbn. exists here, nm. split; [reflexivity|]. split; [now apply nth_lt in N|]. split; [exact N|]. exists g. split; [exact R|congruence].
    + apply last_here.
    + intros x X. apply in_map_iff in X. destruct X as (j & <- & J). cbn. now exists i, g.
    + destruct (IH (fun j J => Of j (or_intror J)) _ _ H P1) as (P2 & r2 & ->).
      * now apply nth_more, nth_more.
      * split; [exact P2|]. rewrite <- !app_assoc. now eexists.
Qed.
Lemma placed_plane b k p ns ns' : add_plane b k ns p = Done ns' -> placed b ns -> placed b ns'.
Proof.
  unfold add_plane. intros H P. apply bind_done in H. destruct H as (n1 & H1 & H).
  assert (P0 : placed b (ns ++ [mk_node (Plane_ p) None []])) by (apply placed_snoc; [exact P|reflexivity]).
  destruct (placed_polygons b k (length ns) (mk_node (Plane_ p) None []) p (polygons_of b p) (fun i I => I) eq_refl _ _ H1 P0 (last_here _ _)) as (P1 & r & ->).
  apply (placed_things _ _ _ (mk_node (Plane_ p) None []) _ _ _ H P1).
  - apply nth_more, last_here.
  - intros x X. apply in_app_or in X. destruct X as [X|X]; [apply in_seq_map in X; destruct X as (i & _ & ->); reflexivity|].
    apply in_map_iff in X. destruct X as (i & <- & I). apply angles_of_spec in I. destruct I as (a & E & Pa). exists a. split; [exact E|]. cbn. congruence.
Qed.
Lemma placed_axis b k a ns ns' : add_axis b k ns a = Done ns' -> placed b ns -> placed b ns'.
Proof.
  unfold add_axis. intros H P. assert (P0 : placed b (ns ++ [mk_node (Axis_ a) None []])) by (apply placed_snoc; [exact P|reflexivity]).
  apply (placed_things _ _ _ (mk_node (Axis_ a) None []) _ _ _ H P0 (last_here _ _)).
  intros x X. rewrite !in_app_iff, !in_seq_map in X. destruct X as [X|[X|[X|[X|[X|X]]]]]; destruct X as (i & _ & ->); reflexivity.
Qed.
Lemma placed_each {A} (f : list node -> A -> run (list node)) b l : (forall x ns ns', f ns x = Done ns' -> placed b ns -> placed b ns') -> forall ns ns', for_each f l ns = Done ns' -> placed b ns -> placed b ns'.
Proof.
  intros F. induction l as [|x l IH]; cbn [for_each]; intros ns ns' H P; [now injection H as <-|]. apply bind_done in H. destruct H as (n1 & H1 & H). apply (IH _ _ H). now apply (F x ns).
Qed.
Lemma nodes_placed b k sc : populate b k = Done sc -> placed b (sc_nodes sc).
Proof.
  intros P. apply populate_nodes in P. unfold all_nodes in P. apply bind_done in P. destruct P as (n1 & H1 & H).
  apply (placed_each _ b _ (fun x ns ns' => placed_axis b k x ns ns') _ _ H). apply (placed_each _ b _ (fun x ns ns' => placed_plane b k x ns ns') _ _ H1).
  intros i nd E. destruct i; discriminate.
Qed.

(** * Selecting *)

Section View.
Context (sc : scene) (fuel : nat) (Fu : length (sc_nodes sc) < fuel) (In_ : wires_inside sc)
        (Tree : forall i nd m, nth_error (sc_nodes sc) i = Some nd -> nd_inside nd = Some m -> m < i).
Let len := length (sc_nodes sc).
Definition rel (m n : nat) : Prop := leads_to sc n m \/ leads_to sc m n.

Lemma inside_lt n m : inside sc n m -> m < n.
Proof. induction 1 as [nd m E I|nd m l E I _ IH]; [exact (Tree _ _ _ E I)|]. pose proof (Tree _ _ _ E I). lia. Qed.

Lemma inside_head n nd (m_ : nat) : nth_error (sc_nodes sc) n = Some nd -> forall l, inside sc n l <-> exists m, nd_inside nd = Some m /\ (l = m \/ inside sc m l).
Proof.
  intros E l. split.
  - induction 1 as [nd' l E' I|nd' p l E' I _ (q & Q & K)].
    + exists l. split; [congruence|now left].
    + exists q. split; [exact Q|right]. destruct K as [->|K]; [now apply inside_it with nd'|now apply inside_more with nd' p].
  - intros (q & Q & [->|K]); [now apply inside_it with nd|]. induction K as [nd' l E' I|nd' p l E' I _ IH]; [|now apply inside_more with nd' p].
    apply inside_more with nd' q; auto. now apply inside_it with nd.
Qed.

Lemma visible_spec st : forall f n, n < len -> n < f -> exists v, is_visible f sc st n = Done v /\ (v = true <-> shown sc st n).
Proof.
  induction f as [|f IH]; intros n L Lf; [lia|]. cbn [is_visible]. destruct (vs_hidden st n) eqn:H.
  - exists false. split; [reflexivity|]. split; [discriminate|]. intros (_ & K & _). congruence.
  - destruct (nth_error (sc_nodes sc) n) as [nd|] eqn:E; [|apply nth_error_None in E; unfold len in L; lia]. unfold read. rewrite E. cbn [bind].
    destruct (nd_inside nd) as [m|] eqn:I.
    + pose proof (Tree _ _ _ E I) as T. destruct (IH m) as (v & V & S'); [lia|lia|]. exists v. split; [exact V|]. rewrite S'. unfold shown. split.
      * intros (Lm & Hm & A). split; [exact L|]. split; [exact H|]. intros l J. apply (inside_head _ _ m E) in J. destruct J as (q & Q & K). rewrite I in Q. injection Q as <-.
        destruct K as [->|K]; auto.
      * intros (_ & _ & A). split; [unfold len in *; lia|]. split; [apply A, (inside_it _ _ nd); assumption|]. intros l J. apply A. apply (inside_head _ _ m E). exists m. auto.
    + exists true. split; [reflexivity|]. split; [|reflexivity]. intros _. split; [exact L|]. split; [exact H|]. intros l J. apply (inside_head _ _ n E) in J. destruct J as (q & Q & _). congruence.
Qed.

(** What is about selection and highlighting only, and what about hiding only. *)
Definition same_marks (st st' : view_state) : Prop :=
  (forall n, vs_selected st' n = vs_selected st n) /\ (forall n, vs_by st' n = vs_by st n) /\ (forall n, vs_lit st' n = vs_lit st n).
Definition same_hidden (st st' : view_state) : Prop := forall n, vs_hidden st' n = vs_hidden st n.
Lemma same_shown st st' n : same_hidden st st' -> shown sc st n -> shown sc st' n.
Proof. intros H (L & A & B). split; [exact L|]. split; [now rewrite H|]. intros m M. rewrite H. now apply B. Qed.
Lemma marks_trans a b c : same_marks a b -> same_marks b c -> same_marks a c.
Proof. intros (A1 & A2 & A3) (B1 & B2 & B3). repeat split; intros n; congruence. Qed.

Record ok (st : view_state) : Prop := {
  ok_by : forall n m, In m (vs_by st n) <-> vs_selected st m = true /\ rel m n;
  ok_lit : forall n, vs_lit st n = true <-> vs_by st n <> [];
  ok_in : forall n, vs_selected st n = true -> n < len }.
Lemma ok_same st st' : same_marks st st' -> ok st -> ok st'.
Proof.
  intros (A & B & C) [H1 H2 H3]. constructor; intros n.
  - intros m. rewrite B, A. apply H1.
  - rewrite C, B. apply H2.
  - rewrite A. apply H3.
Qed.
Lemma ok_fresh : ok fresh.
Proof. constructor; cbn; [intros n m; split; [intros []|intros [X _]; discriminate]|intros n; split; [discriminate|congruence]|discriminate]. Qed.
Lemma ok_highlighted st n : ok st -> highlighted st n <-> related sc st n.
Proof.
  intros O. unfold highlighted. rewrite (ok_lit _ O). split.
  - intros N. destruct (vs_by st n) as [|m r] eqn:E; [contradiction|]. exists m. assert (I : In m (vs_by st n)) by (rewrite E; now left). apply (ok_by _ O) in I. destruct I as [I [J|J]]; auto.
  - intros (m & M & R) E. assert (I : In m (vs_by st n)) by (apply (ok_by _ O); split; [exact M|unfold rel; tauto]). rewrite E in I. destruct I.
Qed.

Lemma marks_fold value m ch : forall st, let st' := fold_left (set_highlighted value m) ch st in
  (forall n, vs_selected st' n = vs_selected st n) /\ same_hidden st st' /\
  (forall n x, In x (vs_by st' n) <-> if in_dec Nat.eq_dec n ch then (value = true /\ x = m) \/ (In x (vs_by st n) /\ x <> m) else In x (vs_by st n)) /\
  ((forall n, vs_lit st n = true <-> vs_by st n <> []) -> forall n, vs_lit st' n = true <-> vs_by st' n <> []).
Proof.
  induction ch as [|c ch IH]; intros st; cbn [fold_left].
  - cbn. split; [reflexivity|]. split; [intros n; reflexivity|]. split; [intros n x; destruct (in_dec Nat.eq_dec n []) as [[]|]; reflexivity|auto].
  - set (s1 := set_highlighted value m st c). destruct (IH s1) as (A & B & C & D). cbn zeta.
    assert (O : forall x, In x (filter (fun y => negb (y =? m)) (vs_by st c)) <-> In x (vs_by st c) /\ x <> m).
    { intros x. rewrite filter_In, negb_true_iff, Nat.eqb_neq. reflexivity. }
    split; [intros n; rewrite A; unfold s1, set_highlighted; destruct value; reflexivity|]. split; [intros n; rewrite B; unfold s1, set_highlighted; destruct value; reflexivity|]. split.
    + intros n x. rewrite C. clear A B C D IH. assert (S1 : In x (vs_by s1 n) <-> if Nat.eq_dec n c then (value = true /\ x = m) \/ (In x (vs_by st n) /\ x <> m) else In x (vs_by st n)).
      { unfold s1, set_highlighted. destruct value; cbn [vs_by]; unfold upd; destruct (Nat.eqb_spec n c) as [->|N]; destruct (Nat.eq_dec _ c) as [E|E]; try congruence; try reflexivity; cbn [In]; rewrite O.
        - split; [intros [<-|K]; auto|intros [[_ ->]|K]; auto].
        - split; [now right|intros [[K _]|K]; [discriminate|exact K]]. }
      destruct (in_dec Nat.eq_dec n ch) as [I|I], (in_dec Nat.eq_dec n (c :: ch)) as [J|J], (Nat.eq_dec n c) as [E|E]; rewrite S1; cbn in J; try tauto; destruct value; try tauto; subst; intuition congruence.
    + intros L. apply D. intros n. unfold s1, set_highlighted. specialize (L n). destruct value; cbn; unfold upd; destruct (Nat.eqb_spec n c) as [->|N]; try exact L; [split; [discriminate|reflexivity]|].
      destruct (filter _ _) as [|y r] eqn:E; [split; [discriminate|congruence]|]. split; [discriminate|]. intros _. apply L. intros Z. rewrite Z in E. discriminate.
Qed.

Lemma item_change_spec value st n : ok st -> n < len -> vs_selected st n = negb value -> exists st', item_change fuel sc value st n = Done st' /\
  same_hidden st st' /\ (forall m, vs_selected st' m = vs_selected st m) /\
  ok (mk_view (upd (vs_selected st') n value) (vs_by st') (vs_lit st') (vs_hidden st')).
Proof.
  intros O L V. unfold item_change. destruct (chain sc fuel n In_ Fu) as (ch & E & _ & I). rewrite E. cbn [bind].
  set (s0 := if value then set_highlighted false n st n else st).
  assert (Z : (forall m, vs_selected s0 m = vs_selected st m) /\ same_hidden st s0 /\ (forall m x, In x (vs_by s0 m) <-> In x (vs_by st m)) /\ forall m, vs_lit s0 m = true <-> vs_by s0 m <> []).
  { unfold s0. destruct value; [|split; [reflexivity|]; split; [intros m; reflexivity|]; split; [reflexivity|exact (ok_lit _ O)]].
    pose proof (marks_fold false n [n] st) as (A & B & C & D). cbn [fold_left] in *. split; [exact A|]. split; [exact B|]. split; [|exact (D (ok_lit _ O))].
    intros m x. rewrite C. destruct (in_dec Nat.eq_dec m [n]) as [[<-|[]]|]; [|reflexivity]. split; [intros [[K _]|K]; [discriminate|tauto]|]. intros K. right. split; [exact K|].
    intros ->. apply (ok_by _ O) in K. rewrite V in K. destruct K. discriminate. }
  destruct Z as (Zs & Zh & Zb & Zl). destruct (marks_fold value n ch s0) as (A & B & C & D). eexists. split; [reflexivity|].
  split; [intros m; rewrite B; apply Zh|]. split; [intros m; now rewrite A|]. constructor; cbn.
  - intros m x. rewrite C. assert (R : In m ch <-> rel n m) by (rewrite I; unfold rel; tauto).
    unfold upd. rewrite A, Zs. destruct (in_dec Nat.eq_dec m ch) as [J|J]; rewrite Zb, (ok_by _ O m x); destruct (Nat.eqb_spec x n) as [->|N]; try rewrite V; destruct value; cbn; try tauto.
  - apply D, Zl.
  - intros m. unfold upd. destruct (Nat.eqb_spec m n) as [->|N]; [intros _; exact L|]. rewrite A, Zs. apply (ok_in _ O).
Qed.

Lemma set_selected_spec value st n : ok st -> n < len -> exists st', set_selected fuel sc value st n = Done st' /\ ok st' /\ same_hidden st st' /\
  (forall m, m <> n -> vs_selected st' m = vs_selected st m) /\ (vs_selected st' n = true <-> value = true /\ shown sc st n).
Proof.
  intros O L. unfold set_selected. destruct (visible_spec st fuel n L) as (v & E & Sh); [unfold len in L; lia|]. rewrite E. cbn [bind].
  assert (W : value && v = true <-> value = true /\ shown sc st n) by (rewrite andb_true_iff, Sh; reflexivity).
  destruct (Bool.eqb (vs_selected st n) (value && v)) eqn:Q.
  - apply Bool.eqb_prop in Q. exists st. split; [reflexivity|]. split; [exact O|]. split; [intros m; reflexivity|]. split; [reflexivity|]. now rewrite Q.
  - apply Bool.eqb_false_iff in Q. destruct (item_change_spec (value && v) st n O L) as (s1 & E1 & H1 & S1 & O1); [destruct (vs_selected st n), (value && v); cbn; congruence|].
    rewrite E1. cbn [bind]. eexists. split; [reflexivity|]. split; [exact O1|]. split; [exact H1|]. cbn. unfold upd. split.
    + intros m N. destruct (Nat.eqb_spec m n); [contradiction|apply S1].
    + rewrite Nat.eqb_refl. exact W.
Qed.

Lemma release_spec st n : ok st -> exists st', mouse_release fuel sc st n = Done st' /\ ok st' /\ same_hidden st st' /\ forall m, vs_selected st' m = vs_selected st m.
Proof.
  intros O. unfold mouse_release. destruct (vs_selected st n) eqn:V; [|exists st; split; [reflexivity|]; split; [exact O|]; split; intros m; reflexivity].
  destruct (chain sc fuel n In_ Fu) as (ch & E & _ & I). rewrite E. cbn [bind]. destruct (marks_fold true n ch st) as (A & B & C & D). eexists. split; [reflexivity|].
  split; [|split; [exact B|exact A]]. constructor.
  - intros m x. rewrite C, A. assert (R : In m ch <-> rel n m) by (rewrite I; unfold rel; tauto). destruct (in_dec Nat.eq_dec m ch) as [J|J]; [|apply (ok_by _ O)].
    rewrite (ok_by _ O). split; [intros [[_ ->]|K]; tauto|]. intros K. destruct (Nat.eq_dec x n); tauto.
  - apply D, (ok_lit _ O).
  - intros m. rewrite A. apply (ok_in _ O).
Qed.

Lemma show_spec : forall f st n, n < len -> n < f -> exists st', show_after_parents f sc st n = Done st' /\ same_marks st st' /\
  (forall m, m = n \/ inside sc n m -> vs_hidden st' m = false) /\ (forall m, vs_hidden st m = false -> vs_hidden st' m = false) /\
  (forall m, vs_hidden st' m = false -> vs_hidden st m = false \/ (m = n \/ inside sc n m)).
Proof.
  induction f as [|f IH]; intros st n L Lf; [lia|]. cbn [show_after_parents]. destruct (visible_spec st (S f) n L Lf) as (v & E & Sh). rewrite E. cbn [bind]. destruct v.
  - exists st. split; [reflexivity|]. split; [repeat split; reflexivity|]. destruct (proj1 Sh eq_refl) as (_ & H & A). split; [intros m [->|M]; auto|auto].
  - destruct (nth_error (sc_nodes sc) n) as [nd|] eqn:N; [|apply nth_error_None in N; unfold len in L; lia]. unfold read. rewrite N. cbn [bind]. destruct (nd_inside nd) as [m|] eqn:I.
    + pose proof (Tree _ _ _ N I) as T. destruct (IH st m) as (s1 & E1 & M1 & A1 & B1 & C1); [lia|lia|]. rewrite E1. cbn [bind]. eexists. split; [reflexivity|]. split; [exact M1|]. cbn. unfold upd. split; [|split].
      * intros l K. destruct (Nat.eqb_spec l n) as [|D]; [reflexivity|]. apply A1. destruct K as [K|K]; [contradiction|]. apply (inside_head _ _ m N) in K. destruct K as (q & Q & K). congruence.
      * intros l K. destruct (Nat.eqb_spec l n) as [D|D]; auto.
      * intros l K. destruct (Nat.eqb_spec l n) as [D|D]; [tauto|]. destruct (C1 l K) as [H|H]; [now left|]. right. right. apply (inside_head _ _ m N). exists m. auto.
    + cbn [bind]. eexists. split; [reflexivity|]. split; [repeat split; reflexivity|]. cbn. unfold upd. split; [|split].
      * intros l [->|K]; [now rewrite Nat.eqb_refl|]. apply (inside_head _ _ n N) in K. destruct K as (q & Q & _). congruence.
      * intros l K. destruct (Nat.eqb_spec l n) as [D|D]; auto.
      * intros l K. destruct (Nat.eqb_spec l n) as [D|D]; [tauto|now left].
Qed.

Lemma show_list l : forall st, (forall n, In n l -> n < len) -> exists st', for_each (show_after_parents fuel sc) l st = Done st' /\ same_marks st st' /\
  (forall n m, In n l -> m = n \/ inside sc n m -> vs_hidden st' m = false) /\ (forall m, vs_hidden st m = false -> vs_hidden st' m = false) /\
  (forall m, vs_hidden st' m = false -> vs_hidden st m = false \/ exists n, In n l /\ (m = n \/ inside sc n m)).
Proof.
  induction l as [|n l IH]; intros st L; cbn [for_each].
  - exists st. split; [reflexivity|]. split; [repeat split; reflexivity|]. split; [intros n m []|]. split; auto.
  - assert (Ln : n < len) by (apply L; now left). destruct (show_spec fuel st n Ln) as (s1 & E1 & M1 & A1 & B1 & C1); [unfold len in Ln; lia|]. rewrite E1. cbn [bind].
    destruct (IH s1) as (s2 & E2 & M2 & A2 & B2 & C2); [intros m M; apply L; now right|]. exists s2. split; [exact E2|]. split; [now apply marks_trans with s1|].
    split; [|split].
    + intros m p [<-|I] K; [apply B2, A1, K|now apply (A2 m p)].
    + auto.
    + intros m H. destruct (C2 m H) as [K|(q & Q & K)]; [|right; exists q; split; [now right|exact K]]. destruct (C1 m K) as [J|J]; [now left|right]. exists n. split; [now left|exact J].
Qed.

(** ** With something done after each change *)

Section Then.
Context (then_ : view_state -> run view_state).
Context (Good : view_state -> Prop) (Good_ok : forall st, Good st -> ok st).
Context (Then_ok : forall st, ok st -> exists st', then_ st = Done st' /\ Good st').

Lemma change_spec value st n : ok st -> n < len -> exists st', change then_ fuel sc value st n = Done st' /\ ok st' /\ (Good st -> Good st') /\
  ((same_marks st st' /\ same_hidden st st' /\ (vs_selected st n = true <-> value = true /\ shown sc st n)) \/
   exists s1, ok s1 /\ same_hidden st s1 /\ (forall m, m <> n -> vs_selected s1 m = vs_selected st m) /\ vs_selected s1 n = negb (vs_selected st n) /\ (vs_selected s1 n = true <-> value = true /\ shown sc st n) /\ then_ s1 = Done st').
Proof.
  intros O L. unfold change. destruct (set_selected_spec value st n O L) as (s1 & E & O1 & H1 & S1 & V1). rewrite E. cbn [bind].
  destruct (Bool.eqb (vs_selected st n) (vs_selected s1 n)) eqn:Q.
  - apply Bool.eqb_prop in Q. exists s1.
    assert (M : s1 = st).
    { unfold set_selected in E. apply bind_done in E. destruct E as (v & Ev & E). destruct (Bool.eqb (vs_selected st n) (value && v)) eqn:K; [now injection E|].
      apply bind_done in E. destruct E as (s2 & E2 & E). injection E as <-. cbn in Q. unfold upd in Q. rewrite Nat.eqb_refl in Q. apply Bool.eqb_false_iff in K. congruence. }
    subst s1. split; [reflexivity|]. split; [exact O|]. split; [auto|]. left. split; [repeat split; reflexivity|]. split; [intros m; reflexivity|]. exact V1.
  - apply Bool.eqb_false_iff in Q. destruct (Then_ok s1 O1) as (s2 & E2 & G2). exists s2. split; [exact E2|]. split; [now apply Good_ok|]. split; [auto|]. right. exists s1.
    split; [exact O1|]. split; [exact H1|]. split; [exact S1|]. split; [destruct (vs_selected st n), (vs_selected s1 n); cbn; congruence|]. split; assumption.
Qed.

Lemma change_list value l : forall st, ok st -> (forall n, In n l -> n < len) -> exists st', for_each (change then_ fuel sc value) l st = Done st' /\ ok st' /\ (Good st -> Good st').
Proof.
  induction l as [|n l IH]; intros st O L; cbn [for_each]; [exists st; auto|]. destruct (change_spec value st n O) as (s1 & E & O1 & G1 & _); [apply L; now left|]. rewrite E. cbn [bind].
  destruct (IH s1 O1) as (s2 & E2 & O2 & G2); [intros m M; apply L; now right|]. exists s2. auto.
Qed.

Lemma ok_hidden st v n : ok st -> ok (set_hidden v st n).
Proof. intros [A B C]. constructor; assumption. Qed.

Lemma hide_ok st n : ok st -> exists st', hide then_ fuel sc st n = Done st' /\ ok st'.
Proof.
  intros O. unfold hide. assert (G : forall l st, ok st -> (forall n, In n l -> n < len) -> exists st', for_each (fun st m => let! seen := is_visible fuel sc st m in if seen then Done st else change then_ fuel sc false st m) l st = Done st' /\ ok st').
  { induction l as [|m l IH]; intros s O' L; cbn [for_each]; [exists s; auto|]. assert (Lm : m < len) by (apply L; now left).
    destruct (visible_spec s fuel m Lm) as (v & E & _); [unfold len in Lm; lia|]. rewrite E. cbn [bind]. destruct v.
    - apply IH; [exact O'|]. intros p P. apply L. now right.
    - destruct (change_spec false s m O' Lm) as (s1 & E1 & O1 & _). rewrite E1. cbn [bind]. apply IH; [exact O1|]. intros p P. apply L. now right. }
  apply G; [now apply ok_hidden|]. intros m M. apply in_seq in M. unfold len. lia.
Qed.
Lemma hide_all_ok st : ok st -> exists st', hide_all then_ fuel sc st = Done st' /\ ok st'.
Proof.
  unfold hide_all. generalize (every_node sc). intros l. revert st. induction l as [|n l IH]; intros st O; cbn [for_each]; [exists st; auto|].
  destruct (hide_ok st n O) as (s1 & E & O1). rewrite E. cbn [bind]. now apply IH.
Qed.

Lemma in_every n : In n (every_node sc) <-> n < len.
Proof. unfold every_node. rewrite in_seq. unfold len. lia. Qed.
Lemma selected_list st n : ok st -> In n (selected_nodes sc st) <-> selected st n.
Proof. intros O. unfold selected_nodes. rewrite filter_In, in_every. unfold selected. split; [tauto|]. intros H. split; [now apply (ok_in _ O)|exact H]. Qed.

Lemma clear_list l : forall st, ok st -> (forall n, In n l -> n < len) -> exists st', for_each (set_selected fuel sc false) l st = Done st' /\ ok st' /\ same_hidden st st' /\
  forall n, vs_selected st' n = true <-> vs_selected st n = true /\ ~ In n l.
Proof.
  induction l as [|n l IH]; intros st O L; cbn [for_each]; [exists st; split; [reflexivity|]; split; [exact O|]; split; [intros m; reflexivity|]; cbn; tauto|].
  destruct (set_selected_spec false st n O) as (s1 & E & O1 & H1 & S1 & V1); [apply L; now left|]. rewrite E. cbn [bind].
  destruct (IH s1 O1) as (s2 & E2 & O2 & H2 & S2); [intros m M; apply L; now right|]. exists s2. split; [exact E2|]. split; [exact O2|]. split; [intros m; rewrite H2; apply H1|].
  intros m. rewrite S2. cbn [In]. destruct (Nat.eq_dec m n) as [->|N]; [rewrite V1; split; [intros [[K _] _]; discriminate|tauto]|]. rewrite S1 by exact N. split; [|tauto]. intros [A B]. split; [exact A|]. intros [->|C]; auto.
Qed.

Lemma clear_spec st : ok st -> exists st', clear_selection then_ fuel sc st = Done st' /\ ok st' /\ (Good st -> Good st') /\
  ((st' = st /\ forall n, ~ selected st n) \/ exists s1, ok s1 /\ same_hidden st s1 /\ (forall n, ~ selected s1 n) /\ then_ s1 = Done st').
Proof.
  intros O. unfold clear_selection. destruct (selected_nodes sc st) as [|a r] eqn:E.
  - exists st. split; [reflexivity|]. split; [exact O|]. split; [auto|]. left. split; [reflexivity|]. intros n N. apply (selected_list st n O) in N. rewrite E in N. destruct N.
  - rewrite <- E. destruct (clear_list (selected_nodes sc st) st O) as (s1 & E1 & O1 & H1 & S1); [intros n N; apply (selected_list st n O) in N; now apply (ok_in _ O)|]. rewrite E1. cbn [bind].
    destruct (Then_ok s1 O1) as (s2 & E2 & G2). exists s2. split; [exact E2|]. split; [now apply Good_ok|]. split; [auto|]. right. exists s1. split; [exact O1|]. split; [exact H1|]. split; [|exact E2].
    intros n N. unfold selected in N. apply S1 in N. destruct N as [N K]. apply K. now apply (selected_list st n O).
Qed.

Lemma display_ok st : ok st -> exists st', display_chain then_ fuel sc st = Done st' /\ ok st'.
Proof.
  intros O. unfold display_chain. destruct (hide_all_ok st O) as (s1 & E1 & O1). rewrite E1. cbn [bind]. destruct (clear_spec s1 O1) as (s2 & E2 & O2 & _). rewrite E2. cbn [bind].
  destruct (show_list (selected_nodes sc st ++ highlighted_nodes sc st) s2) as (s3 & E3 & M3 & _).
  { intros n N. apply in_app_or in N. apply in_every. destruct N as [N|N]; apply filter_In in N; tauto. }
  rewrite E3. cbn [bind]. destruct (change_list true (selected_nodes sc st) s3) as (s4 & E4 & O4 & _); [now apply (ok_same s2)|intros n N; apply in_every; apply filter_In in N; tauto|].
  exists s4. auto.
Qed.

Lemma counterparts_list l : forall st, ok st -> (forall n, In n l -> n < len) ->
  exists st', for_each (fun st n => let! st := show_after_parents fuel sc st n in change then_ fuel sc true st n) l st = Done st' /\ ok st'.
Proof.
  induction l as [|n l IH]; intros st O L; cbn [for_each]; [exists st; auto|]. assert (Ln : n < len) by (apply L; now left).
  destruct (show_spec fuel st n Ln) as (s1 & E1 & M1 & _); [unfold len in Ln; lia|]. rewrite E1. cbn [bind]. destruct (change_spec true s1 n) as (s2 & E2 & O2 & _); [now apply (ok_same st)|exact Ln|].
  rewrite E2. cbn [bind]. apply IH; [exact O2|]. intros m M. apply L. now right.
Qed.
End Then.
End View.
