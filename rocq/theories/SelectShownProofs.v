From Coq Require Import List Arith Bool Lia Relations.Relation_Operators.
From Verif Require Import IntervalModel ManagerModel ManagerProofs GeomModel BoardModel BoardSpec SceneModel SceneSpec SceneProofs SceneWalkProofs SelectModel SelectSpec SelectProofs.
Import ListNotations.
Open Scope nat_scope.

Section View.
Context (sc : scene) (fuel : nat) (Fu : length (sc_nodes sc) < fuel) (In_ : wires_inside sc)
        (Tree : forall i nd m, nth_error (sc_nodes sc) i = Some nd -> nd_inside nd = Some m -> m < i).
Let len := length (sc_nodes sc).
Notation ok := (ok sc).
Notation same_marks := (same_marks).
Notation vspec := (visible_spec sc fuel Fu Tree).

Definition locked (st : view_state) : run view_state := Done st.
Lemma locked_ok st : ok st -> exists st', locked st = Done st' /\ ok st'.
Proof. intros O. exists st. now split. Qed.

Lemma marks_selected st st' : same_marks st st' -> forall n, selected st' n <-> selected st n.
Proof. intros (A & _) n. unfold selected. now rewrite A. Qed.

Lemma change_locked value st n : ok st -> n < len -> exists st', change locked fuel sc value st n = Done st' /\ ok st' /\ same_hidden st st' /\
  (forall m, m <> n -> vs_selected st' m = vs_selected st m) /\ (vs_selected st' n = true <-> value = true /\ shown sc st n).
Proof.
  intros O L. destruct (change_spec sc fuel Fu In_ Tree locked ok (fun s H => H) locked_ok value st n O L) as (s1 & E & O1 & _ & K). exists s1. split; [exact E|]. split; [exact O1|].
  destruct K as [(M & H & V)|(s2 & O2 & H & S2 & _ & V & T)].
  - split; [exact H|]. split; [intros m _; apply M|]. destruct M as (M & _). now rewrite M.
  - injection T as ->. split; [exact H|]. split; [exact S2|exact V].
Qed.

Lemma hide_locked st n : ok st -> exists st', hide locked fuel sc st n = Done st' /\ ok st' /\ (forall m, vs_hidden st' m = if m =? n then true else vs_hidden st m) /\
  forall m, selected st' m -> selected st m /\ shown sc st' m.
Proof.
  intros O. unfold hide.
  assert (G : forall l st, ok st -> (forall n, In n l -> n < len) -> exists st', for_each (fun st m => let! seen := is_visible fuel sc st m in if seen then Done st else change locked fuel sc false st m) l st = Done st'
    /\ ok st' /\ same_hidden st st' /\ forall m, selected st' m -> selected st m /\ (In m l -> shown sc st' m)).
  { induction l as [|m l IH]; intros s O' L; cbn [for_each].
    - exists s. split; [reflexivity|]. split; [exact O'|]. split; [intros m; reflexivity|]. intros m M. split; [exact M|intros []].
    - assert (Lm : m < len) by (apply L; now left). assert (L' : forall n, In n l -> n < len) by (intros p P; apply L; now right).
      destruct (vspec s fuel m Lm) as (v & E & Sh); [unfold len in Lm; lia|]. rewrite E. cbn [bind]. destruct v.
      + destruct (IH s O' L') as (s2 & E2 & O2 & H2 & S2). exists s2. split; [exact E2|]. split; [exact O2|]. split; [exact H2|]. intros p P. destruct (S2 p P) as [A B]. split; [exact A|].
        intros [<-|I]; [apply (same_shown sc s); [exact H2|now apply Sh]|auto].
      + destruct (change_locked false s m O' Lm) as (s1 & E1 & O1 & H1 & S1 & V1). rewrite E1. cbn [bind]. destruct (IH s1 O1 L') as (s2 & E2 & O2 & H2 & S2).
        exists s2. split; [exact E2|]. split; [exact O2|]. split; [intros p; rewrite H2; apply H1|]. intros p P. destruct (S2 p P) as [A B]. destruct (Nat.eq_dec p m) as [->|N].
        * unfold selected in A. rewrite V1 in A. destruct A; discriminate.
        * unfold selected in A. rewrite S1 in A by exact N. split; [exact A|]. intros [<-|I]; [contradiction|auto]. }
  destruct (G (every_node sc) (set_hidden true st n)) as (s2 & E2 & O2 & H2 & S2); [now apply ok_hidden|intros m M; now apply (in_every sc fuel Fu) in M|].
  exists s2. split; [exact E2|]. split; [exact O2|]. split; [intros m; rewrite H2; reflexivity|]. intros m M. destruct (S2 m M) as [A B]. split; [exact A|]. apply B. apply (in_every sc fuel Fu). now apply (ok_in sc s2).
Qed.

Lemma hide_all_locked l : forall st, ok st -> exists st', for_each (hide locked fuel sc) l st = Done st' /\ ok st' /\ (forall m, In m l -> vs_hidden st' m = true) /\
  forall m, selected st' m -> selected st m /\ (l = [] \/ shown sc st' m).
Proof.
  induction l as [|n l IH]; intros st O; cbn [for_each].
  - exists st. split; [reflexivity|]. split; [exact O|]. split; [intros m []|]. auto.
  - destruct (hide_locked st n O) as (s1 & E1 & O1 & H1 & S1). rewrite E1. cbn [bind].
    assert (G : forall m l s s', for_each (hide locked fuel sc) l s = Done s' -> ok s -> vs_hidden s m = true -> vs_hidden s' m = true).
    { intros m r. induction r as [|a r IHr]; cbn [for_each]; intros s s' F Os H; [now injection F as <-|]. destruct (hide_locked s a Os) as (s3 & E3 & O3 & H3 & _). rewrite E3 in F. cbn [bind] in F.
      apply (IHr _ _ F O3). rewrite H3. now destruct (m =? a). }
    destruct (IH s1 O1) as (s2 & E2 & O2 & H2 & S2). exists s2. split; [exact E2|]. split; [exact O2|]. split.
    + intros m [<-|I]; [|now apply H2]. apply (G _ _ _ _ E2 O1). rewrite H1. now rewrite Nat.eqb_refl.
    + intros m M. destruct (S2 m M) as [A B]. destruct (S1 m A) as [C D]. split; [exact C|right]. destruct B as [->|B]; [|exact B]. cbn in E2. injection E2 as <-. exact D.
Qed.

Lemma select_locked l : forall st, ok st -> (forall n, In n l -> shown sc st n) -> exists st', for_each (change locked fuel sc true) l st = Done st' /\ ok st' /\ same_hidden st st' /\
  forall n, selected st' n <-> selected st n \/ In n l.
Proof.
  induction l as [|n l IH]; intros st O Sh; cbn [for_each].
  - exists st. split; [reflexivity|]. split; [exact O|]. split; [intros m; reflexivity|]. cbn. tauto.
  - assert (Hn : shown sc st n) by (apply Sh; now left). destruct (change_locked true st n O) as (s1 & E1 & O1 & H1 & S1 & V1); [exact (proj1 Hn)|]. rewrite E1. cbn [bind].
    destruct (IH s1 O1) as (s2 & E2 & O2 & H2 & S2); [intros m M; apply (same_shown sc st); [exact H1|apply Sh; now right]|]. exists s2. split; [exact E2|]. split; [exact O2|]. split; [intros m; rewrite H2; apply H1|].
    intros m. rewrite S2. cbn [In]. unfold selected. destruct (Nat.eq_dec m n) as [->|N]; [rewrite V1; tauto|]. rewrite S1 by exact N. intuition congruence.
Qed.

Definition marked (st : view_state) (a : nat) : Prop := selected st a \/ highlighted st a.
Definition neat (st : view_state) : Prop := forall n, shown sc st n <-> exists a, marked st a /\ (n = a \/ inside sc a n).
Definition Good (st : view_state) : Prop := ok st /\ neat st.

Lemma leads_in m n : leads_to sc m n -> m < len /\ n < len.
Proof. intros H. unfold len. induction H as [m n (w & I & <- & <-)|m p n (w & I & <- & <-) _ (_ & IH)]; [now apply In_|]. split; [now apply In_|exact IH]. Qed.
Lemma marked_in st a : ok st -> marked st a -> a < len.
Proof. intros O [M|M]; [now apply (ok_in sc st O)|]. apply (ok_highlighted sc st a O) in M. destruct M as (m & _ & [L|L]); now apply leads_in in L. Qed.
Lemma marked_same st st' : ok st -> ok st' -> (forall n, selected st' n <-> selected st n) -> forall a, marked st' a <-> marked st a.
Proof.
  intros O O' S' a. unfold marked. rewrite (ok_highlighted sc st a O), (ok_highlighted sc st' a O'), S'. unfold related.
  split; (intros [H|(m & M & R)]; [now left|right; exists m; split; [now apply S'|exact R]]).
Qed.
Lemma inside_trans a n m : inside sc a n -> inside sc n m -> inside sc a m.
Proof. intros A B. induction B as [nd m E I|nd p m E I _ IH]; [now apply inside_more with nd n|now apply inside_more with nd p]. Qed.

Lemma display_locked st : ok st -> exists st', on_selection_changed fuel sc st = Done st' /\ Good st' /\ forall n, selected st' n <-> selected st n.
Proof.
  intros O. unfold on_selection_changed, display_chain. change (fun st => Done st) with locked.
  destruct (hide_all_locked (every_node sc) st O) as (s1 & E1 & O1 & H1 & S1). unfold hide_all. rewrite E1. cbn [bind].
  assert (N1 : forall n, ~ selected s1 n).
  { intros n N. pose proof (ok_in sc s1 O1 n N) as L. apply (in_every sc fuel Fu) in L. destruct (S1 n N) as [_ [K|(_ & K & _)]]; [rewrite K in L; destruct L|]. rewrite (H1 n L) in K. discriminate. }
  destruct (clear_spec sc fuel Fu In_ Tree locked ok (fun s H => H) locked_ok s1 O1) as (s2 & E2 & O2 & _ & K). rewrite E2. cbn [bind].
  assert (X2 : same_hidden s1 s2 /\ forall n, ~ selected s2 n).
  { destruct K as [[-> _]|(s' & _ & Hs & Ns & T)]; [split; [intros n; reflexivity|exact N1]|]. injection T as ->. now split. }
  destruct X2 as [H2 N2].
  assert (Ll : forall n, In n (selected_nodes sc st ++ highlighted_nodes sc st) <-> marked st n).
  { intros n. rewrite in_app_iff. rewrite (selected_list sc fuel Fu st n O). unfold highlighted_nodes. rewrite filter_In, (in_every sc fuel Fu). unfold marked, highlighted. split; [tauto|]. intros M. pose proof (marked_in st n O M). unfold marked, highlighted in M. fold len. tauto. }
  destruct (show_list sc fuel Fu Tree (selected_nodes sc st ++ highlighted_nodes sc st) s2) as (s3 & E3 & M3 & A3 & _ & B3); [intros n N; apply Ll in N; now apply (marked_in st)|].
  rewrite E3. cbn [bind].
  assert (O3 : ok s3) by now apply (ok_same sc s2).
  assert (Sh : forall n, shown sc s3 n <-> exists a, marked st a /\ (n = a \/ inside sc a n)).
  { intros n. split.
    - intros (L & H & _). destruct (B3 n H) as [K'|(a & A & I)]; [|exists a; split; [now apply Ll|exact I]]. rewrite H2, H1 in K'; [discriminate|now apply (in_every sc fuel Fu)].
    - intros (a & M & Kx). pose proof (marked_in st a O M) as La. apply Ll in M. assert (n < len) by (destruct Kx as [->|Kx]; [exact La|apply (inside_lt sc fuel Fu Tree) in Kx; lia]).
      split; [assumption|]. split; [now apply (A3 a)|]. intros m I. apply (A3 a m M). right. destruct Kx as [->|Kx]; [exact I|]. now apply inside_trans with n. }
  destruct (select_locked (selected_nodes sc st) s3 O3) as (s4 & E4 & O4 & H4 & S4).
  { intros n N. apply Sh. exists n. split; [left; now apply (selected_list sc fuel Fu st n O)|now left]. }
  exists s4. split; [exact E4|].
  assert (Se : forall n, selected s4 n <-> selected st n).
  { intros n. rewrite S4, (selected_list sc fuel Fu st n O), (marks_selected s2 s3 M3). split; [intros [C|C]; [now apply N2 in C|exact C]|now right]. }
  split; [|exact Se]. split; [exact O4|]. intros n.
  assert (Sx : shown sc s4 n <-> shown sc s3 n) by (split; apply same_shown; intros m; [symmetry|]; apply H4). rewrite Sx, Sh.
  split; intros (a & M & I); exists a; (split; [|exact I]); now apply (marked_same st s4 O O4 Se).
Qed.

Lemma good_ok st : Good st -> ok st.
Proof. now intros [O _]. Qed.
Lemma then_good st : ok st -> exists st', on_selection_changed fuel sc st = Done st' /\ Good st'.
Proof. intros O. destruct (display_locked st O) as (s & E & G & _). now exists s. Qed.
Notation osc := (on_selection_changed fuel sc).

Lemma good_same st st' : same_marks st st' -> same_hidden st st' -> Good st -> Good st'.
Proof.
  intros M H [O N]. assert (O' : ok st') by now apply (ok_same sc st). split; [exact O'|]. intros n.
  assert (Sx : shown sc st' n <-> shown sc st n) by (split; apply same_shown; intros m; [symmetry|]; apply H). rewrite Sx, (N n).
  split; intros (a & A & I); exists a; (split; [|exact I]); now apply (marked_same st st' O O' (marks_selected st st' M)).
Qed.

Lemma hide_none then_ (G : view_state -> Prop) (Go : forall st, G st -> ok st) (To : forall st, ok st -> exists st', then_ st = Done st' /\ G st') l : forall st, ok st -> (forall n, ~ selected st n) ->
  exists st', for_each (hide then_ fuel sc) l st = Done st' /\ ok st' /\ (forall n, ~ selected st' n) /\ (forall m, vs_hidden st m = true \/ In m l -> vs_hidden st' m = true).
Proof.
  induction l as [|n l IH]; intros st O N; cbn [for_each].
  - exists st. split; [reflexivity|]. split; [exact O|]. split; [exact N|]. intros m [H|[]]. exact H.
  - assert (H : exists s1, hide then_ fuel sc st n = Done s1 /\ ok s1 /\ (forall m, ~ selected s1 m) /\ same_hidden (set_hidden true st n) s1).
    { unfold hide. assert (K : forall r s, ok s -> (forall m, In m r -> m < len) -> (forall m, ~ selected s m) -> exists s1,
        for_each (fun st m => let! seen := is_visible fuel sc st m in if seen then Done st else change then_ fuel sc false st m) r s = Done s1 /\ ok s1 /\ (forall m, ~ selected s1 m) /\ same_hidden s s1).
      { induction r as [|m r IHr]; intros s Os L Ns; cbn [for_each]; [exists s; split; [reflexivity|]; split; [exact Os|]; split; [exact Ns|intros m; reflexivity]|].
        assert (Lm : m < len) by (apply L; now left). destruct (vspec s fuel m Lm) as (v & E & _); [unfold len in Lm; lia|]. rewrite E. cbn [bind].
        assert (L' : forall p, In p r -> p < len) by (intros p P; apply L; now right). destruct v; [now apply IHr|].
        destruct (change_spec sc fuel Fu In_ Tree then_ G Go To false s m Os Lm) as (s1 & E1 & O1 & _ & D). rewrite E1. cbn [bind]. destruct D as [(M & Hd & _)|(s2 & _ & _ & _ & V & W & _)].
        - destruct (IHr s1 O1 L') as (s3 & E3 & O3 & N3 & H3); [intros p P; apply (Ns p); now apply (marks_selected s s1 M)|]. exists s3. split; [exact E3|]. split; [exact O3|]. split; [exact N3|]. intros p. rewrite H3. apply Hd.
        - exfalso. specialize (Ns m). unfold selected in Ns. destruct (vs_selected s m); [contradiction|]. cbn in V. apply W in V. destruct V. discriminate. }
      apply K; [now apply ok_hidden|intros m M; now apply (in_every sc fuel Fu) in M|exact N]. }
    destruct H as (s1 & E1 & O1 & N1 & H1). rewrite E1. cbn [bind]. destruct (IH s1 O1 N1) as (s2 & E2 & O2 & N2 & H2). exists s2. split; [exact E2|]. split; [exact O2|]. split; [exact N2|].
    intros m M. apply H2. destruct M as [M|[<-|M]]; [left|left|now right]; rewrite H1; cbn; unfold upd; [destruct (m =? n); [reflexivity|exact M]|now rewrite Nat.eqb_refl].
Qed.

Lemma none_good st : ok st -> (forall n, ~ selected st n) -> (forall n, n < len -> vs_hidden st n = true) -> Good st.
Proof.
  intros O N H. split; [exact O|]. intros n. split; [intros (L & K & _); rewrite H in K by exact L; discriminate|]. intros (a & [M|M] & _); [now apply N in M|].
  apply (ok_highlighted sc st a O) in M. destruct M as (m & M & _). now apply N in M.
Qed.

Lemma clear_none st : ok st -> exists st', clear_selection osc fuel sc st = Done st' /\ ok st' /\ (Good st -> Good st') /\ (forall n, ~ selected st' n).
Proof.
  intros O. destruct (clear_spec sc fuel Fu In_ Tree osc Good good_ok then_good st O) as (s2 & E2 & O2 & G2 & K). exists s2. split; [exact E2|]. split; [exact O2|]. split; [exact G2|].
  destruct K as [[-> N]|(s1 & O1 & _ & N1 & T)]; [auto|]. destruct (display_locked s1 O1) as (s3 & E3 & _ & S3). rewrite T in E3. injection E3 as <-. intros n N. apply (N1 n), S3, N.
Qed.
Lemma clear_empty then_ st : ok st -> (forall n, ~ selected st n) -> clear_selection then_ fuel sc st = Done st.
Proof. intros O N. unfold clear_selection. destruct (selected_nodes sc st) as [|a r] eqn:E; [reflexivity|]. exfalso. apply (N a), (selected_list sc fuel Fu st a O). rewrite E. now left. Qed.

Lemma switch_good st : ok st -> exists st', switch_to_selected_chain fuel sc st = Done st' /\ Good st'.
Proof.
  intros O. unfold switch_to_selected_chain, display_chain.
  assert (Ll : forall n, In n (selected_nodes sc st ++ highlighted_nodes sc st) -> n < len).
  { intros n N. apply in_app_or in N. apply (in_every sc fuel Fu). destruct N as [N|N]; apply filter_In in N; tauto. }
  assert (Ls : forall n, In n (selected_nodes sc st) -> n < len) by (intros n N; apply Ll, in_or_app; now left).
  destruct (selected_nodes sc st) as [|a r] eqn:E.
  - assert (N : forall n, ~ selected st n) by (intros n N; apply (selected_list sc fuel Fu st n O) in N; rewrite E in N; destruct N).
    assert (Hl : highlighted_nodes sc st = []).
    { destruct (highlighted_nodes sc st) as [|c q] eqn:Q; [reflexivity|]. exfalso. assert (C : In c (highlighted_nodes sc st)) by (rewrite Q; now left). apply filter_In in C. destruct C as [_ C].
      apply (ok_highlighted sc st c O) in C. destruct C as (m & M & _). now apply N in M. }
    rewrite Hl. destruct (hide_none osc Good good_ok then_good (every_node sc) st O N) as (s1 & E1 & O1 & N1 & H1). unfold hide_all. rewrite E1. cbn [bind].
    rewrite (clear_empty osc s1 O1 N1). cbn [bind app for_each]. exists s1. split; [reflexivity|]. apply none_good; [exact O1|exact N1|]. intros n L. apply H1. right. now apply (in_every sc fuel Fu).
  - destruct (hide_all_ok sc fuel Fu In_ Tree osc Good good_ok then_good st O) as (s1 & E1 & O1). rewrite E1. cbn [bind]. destruct (clear_none s1 O1) as (s2 & E2 & O2 & _ & N2). rewrite E2. cbn [bind].
    destruct (show_list sc fuel Fu Tree ((a :: r) ++ highlighted_nodes sc st) s2 Ll) as (s3 & E3 & M3 & A3 & _). rewrite E3. cbn [bind for_each].
    assert (O3 : ok s3) by now apply (ok_same sc s2). assert (La : a < len) by (apply Ls; now left).
    destruct (change_spec sc fuel Fu In_ Tree osc Good good_ok then_good true s3 a O3 La) as (s4 & E4 & O4 & _ & K). rewrite E4. cbn [bind].
    assert (G4 : Good s4).
    { destruct K as [(_ & _ & V)|(s' & O' & _ & _ & _ & _ & T)]; [exfalso|destruct (then_good s' O') as (s5 & E5 & G5); congruence].
      apply (N2 a), (marks_selected s2 s3 M3). apply V. split; [reflexivity|]. split; [exact La|]. split; [apply (A3 a a); [now left|now left]|]. intros m I. apply (A3 a m); [now left|now right]. }
    destruct (change_list sc fuel Fu In_ Tree osc Good good_ok then_good true r s4 O4) as (s5 & E5 & O5 & G5); [intros n N; apply Ls; now right|]. exists s5. split; [exact E5|auto].
Qed.

Lemma shown_all_same st n : shown sc st n -> forall st', (forall m, vs_hidden st m = false -> vs_hidden st' m = false) -> shown sc st' n.
Proof. intros (L & A & B) st' H. split; [exact L|]. split; auto. Qed.

(** Selecting from outside, in the mode SELECTED_CHAIN. *)
Lemma outside_list l : forall st, (Good st \/ (ok st /\ forall n, ~ selected st n)) -> (forall n, In n l -> n < len) ->
  exists st', for_each (fun st n => let! st := show_after_parents fuel sc st n in change osc fuel sc true st n) l st = Done st' /\ ok st' /\
    (forall n, selected st' n <-> selected st n \/ In n l) /\ (Good st \/ l <> [] -> Good st').
Proof.
  induction l as [|n l IH]; intros st J L; cbn [for_each].
  - exists st. split; [reflexivity|]. split; [destruct J as [[O _]|[O _]]; exact O|]. split; [cbn; tauto|]. intros [G|G]; [exact G|contradiction].
  - assert (O : ok st) by (destruct J as [[O _]|[O _]]; exact O). assert (Ln : n < len) by (apply L; now left).
    destruct (show_spec sc fuel Fu Tree fuel st n Ln) as (s1 & E1 & M1 & A1 & B1 & C1); [unfold len in Ln; lia|]. rewrite E1. cbn [bind]. assert (O1 : ok s1) by now apply (ok_same sc st).
    assert (Sn : shown sc s1 n) by (split; [exact Ln|]; split; [apply A1; now left|intros m I; apply A1; now right]).
    destruct (change_spec sc fuel Fu In_ Tree osc Good good_ok then_good true s1 n O1 Ln) as (s2 & E2 & O2 & _ & K). rewrite E2. cbn [bind].
    assert (X : Good s2 /\ forall m, selected s2 m <-> selected st m \/ m = n).
    { destruct K as [(M & H & V)|(s' & O' & H' & S' & V & W & T)].
      - assert (Sl : selected s1 n) by (unfold selected; apply V; split; [reflexivity|exact Sn]). assert (Sl0 : selected st n) by now apply (marks_selected st s1 M1).
        split; [|intros m; rewrite (marks_selected s1 s2 M m), (marks_selected st s1 M1 m); split; [now left|intros [Q| ->]; assumption]].
        destruct J as [G|[_ N]]; [|now apply N in Sl0]. apply (good_same s1 s2 M H). apply (good_same st s1 M1); [|exact G].
        assert (Sh : shown sc st n) by (apply G; exists n; split; [now left|now left]). intros m. destruct (vs_hidden st m) eqn:Hm; [|now apply B1].
        destruct (vs_hidden s1 m) eqn:H1; [reflexivity|]. destruct Sh as (_ & Sa & Sb). destruct (C1 m H1) as [Q|[->|Q]]; [congruence|congruence|]. rewrite (Sb m Q) in Hm. discriminate.
      - destruct (display_locked s' O') as (s3 & E3 & G3 & S3). rewrite T in E3. injection E3 as <-. split; [exact G3|]. intros m. rewrite S3. unfold selected. destruct (Nat.eq_dec m n) as [->|Nm].
        + split; [now right|]. intros _. apply W. split; [reflexivity|exact Sn].
        + rewrite S' by exact Nm. destruct M1 as (M1 & _). rewrite M1. intuition congruence. }
    destruct X as [G2 S2]. destruct (IH s2 (or_introl G2)) as (s3 & E3 & O3 & S3 & G3); [intros m M; apply L; now right|]. exists s3. split; [exact E3|]. split; [exact O3|]. split; [|auto].
    intros m. rewrite S3, S2. cbn [In]. intuition congruence.
Qed.

Lemma outside_good l st : Good st -> (forall n, In n l -> n < len) -> exists st', select_counterparts osc fuel sc l st = Done st' /\ Good st' /\ forall n, selected st' n <-> In n l.
Proof.
  intros G L. unfold select_counterparts. destruct (clear_none st (good_ok st G)) as (s1 & E1 & O1 & G1 & N1). rewrite E1. cbn [bind].
  destruct (outside_list l s1 (or_introl (G1 G)) L) as (s2 & E2 & O2 & S2 & G2). exists s2. split; [exact E2|]. split; [auto|]. intros n. rewrite S2. split; [intros [Q|Q]; [now apply N1 in Q|exact Q]|now right].
Qed.

(** ** In the mode EVERYTHING *)

Definition plain (st : view_state) : Prop := ok st /\ forall n, n < len -> shown sc st n.
Lemma plain_same st st' : ok st' -> same_hidden st st' -> plain st -> plain st'.
Proof. intros O H [_ P]. split; [exact O|]. intros n L. apply (same_shown sc st); auto. Qed.

Lemma everything st : ok st -> exists st', switch_to_everything fuel sc st = Done st' /\ plain st' /\ forall n, selected st' n <-> selected st n.
Proof.
  intros O. unfold switch_to_everything, show_all. destruct (show_list sc fuel Fu Tree (every_node sc) st) as (s1 & E1 & M1 & A1 & _); [intros n N; now apply (in_every sc fuel Fu) in N|]. exists s1. split; [exact E1|].
  split; [|exact (marks_selected st s1 M1)]. split; [now apply (ok_same sc st)|]. intros n L. apply (in_every sc fuel Fu) in L. split; [now apply (in_every sc fuel Fu) in L|]. split; [apply (A1 n n L); now left|].
  intros m I. apply (A1 n m L). now right.
Qed.

Lemma outside_plain l : forall st, plain st -> (forall n, In n l -> n < len) -> exists st', select_counterparts locked fuel sc l st = Done st' /\ plain st' /\ forall n, selected st' n <-> In n l.
Proof.
  intros st [O P] L. unfold select_counterparts. destruct (clear_spec sc fuel Fu In_ Tree locked ok (fun s H => H) locked_ok st O) as (s1 & E1 & O1 & _ & K). rewrite E1. cbn [bind].
  assert (X : plain s1 /\ forall n, ~ selected s1 n).
  { destruct K as [[-> N]|(s' & O' & H' & N' & T)]; [now split|]. injection T as ->. split; [|exact N']. now apply (plain_same st). }
  destruct X as [P1 N1]. assert (G : forall r s, plain s -> (forall n, In n r -> n < len) -> exists s', for_each (fun st n => let! st := show_after_parents fuel sc st n in change locked fuel sc true st n) r s = Done s' /\ plain s'
    /\ forall n, selected s' n <-> selected s n \/ In n r).
  { induction r as [|n r IH]; intros s Ps Lr; cbn [for_each]; [exists s; split; [reflexivity|]; split; [exact Ps|]; cbn; tauto|]. assert (Ln : n < len) by (apply Lr; now left).
    destruct (show_spec sc fuel Fu Tree fuel s n Ln) as (s2 & E2 & M2 & _ & B2 & _); [unfold len in Ln; lia|]. rewrite E2. cbn [bind].
    assert (P2 : plain s2) by (split; [apply (ok_same sc s); [exact M2|exact (proj1 Ps)]|intros m M; apply (shown_all_same s m); [now apply Ps|exact B2]]).
    destruct (change_locked true s2 n (proj1 P2) Ln) as (s3 & E3 & O3 & H3 & S3 & V3). rewrite E3. cbn [bind]. destruct (IH s3) as (s4 & E4 & P4 & S4); [now apply (plain_same s2)|intros m M; apply Lr; now right|].
    exists s4. split; [exact E4|]. split; [exact P4|]. intros m. rewrite S4. cbn [In]. unfold selected. destruct M2 as (M2 & _). destruct (Nat.eq_dec m n) as [->|Nm].
    - rewrite V3. split; [tauto|]. intros _. left. split; [reflexivity|]. now apply P2.
    - rewrite S3 by exact Nm. rewrite M2. intuition congruence. }
  destruct (G l s1 P1 L) as (s2 & E2 & P2 & S2). exists s2. split; [exact E2|]. split; [exact P2|]. intros n. rewrite S2. split; [intros [Q|Q]; [now apply N1 in Q|exact Q]|now right].
Qed.

(** ** Gestures *)

Definition fine (x : looked) : Prop := if fst x then Good (snd x) else plain (snd x).
Lemma fine_ok x : fine x -> ok (snd x).
Proof. destruct x as [[|] st]; cbn; intros [O _]; exact O. Qed.
Lemma plain_ok st : plain st -> ok st.
Proof. now intros [O _]. Qed.

(** What a gesture makes of the selection, but for the change to the mode SELECTED_CHAIN. *)
Definition choice (x : looked) (g : gesture) (m : nat) : Prop :=
  match g with
  | Click value n => if value then selected (snd x) m \/ (m = n /\ shown sc (snd x) n) else selected (snd x) m /\ m <> n
  | Release _ | Show_everything => selected (snd x) m
  | Elsewhere l => In m l
  | Escape => False
  | Show_selected_chain => False
  end.

Lemma click_choice (then_ : view_state -> run view_state) (G : view_state -> Prop) (Go : forall st, G st -> ok st) (To : forall st, ok st -> exists st', then_ st = Done st' /\ G st' /\ forall n, selected st' n <-> selected st n) value st n :
  ok st -> n < len -> (forall m, selected st m -> shown sc st m) -> exists st', change then_ fuel sc value st n = Done st' /\ (G st -> G st') /\
    forall m, selected st' m <-> if value then selected st m \/ (m = n /\ shown sc st n) else selected st m /\ m <> n.
Proof.
  intros O L Sh. assert (To' : forall st, ok st -> exists st', then_ st = Done st' /\ G st') by (intros s Os; destruct (To s Os) as (s' & A & B & _); now exists s').
  destruct (change_spec sc fuel Fu In_ Tree then_ G Go To' value st n O L) as (s1 & E & O1 & G1 & K). exists s1. split; [exact E|]. split; [exact G1|]. intros m.
  assert (V : (forall p, p <> n -> selected s1 p <-> selected st p) /\ (selected s1 n <-> value = true /\ shown sc st n)).
  { destruct K as [(M & _ & V)|(s2 & O2 & _ & S2 & _ & V & T)].
    - split; [intros p _; now apply marks_selected|]. rewrite (marks_selected st s1 M n). exact V.
    - destruct (To s2 O2) as (s3 & E3 & _ & S3). rewrite T in E3. injection E3 as <-. split; [intros p P; rewrite S3; unfold selected; now rewrite S2|]. rewrite S3. exact V. }
  destruct V as [V1 V2]. destruct (Nat.eq_dec m n) as [->|N].
  - rewrite V2. destruct value; [split; [tauto|]; intros [Q|[_ Q]]; [split; [reflexivity|now apply Sh]|now split]|]. split; [intros [Q _]; discriminate|tauto].
  - rewrite V1 by exact N. destruct value; tauto.
Qed.

Lemma gesture_fine x g : fine x -> about sc g -> exists x', gesture_done fuel sc x g = Done x' /\ fine x' /\ (g <> Show_selected_chain -> forall m, selected (snd x') m <-> choice x g m).
Proof.
  intros F A. pose proof (fine_ok x F) as O. destruct x as [c st]. cbn [snd] in *.
  assert (Sh : forall m, selected st m -> shown sc st m).
  { intros m M. destruct c; cbn in F; destruct F as [_ F]; [apply F; exists m; split; [now left|now left]|apply F; now apply (ok_in sc st)]. }
  destruct g as [value n|n|l| | |]; cbn [gesture_done about choice snd] in *.
  - destruct c; cbn [in_mode].
    + destruct (click_choice (in_mode true fuel sc) Good good_ok (fun s Os => display_locked s Os) value st n O A Sh) as (s1 & E & G1 & S1). rewrite E. cbn [bind]. eexists. split; [reflexivity|]. split; [now apply G1|intros _; exact S1].
    + destruct (change_locked value st n O A) as (s1 & E & O1 & H1 & S1 & V1). change (in_mode false fuel sc) with locked. rewrite E. cbn [bind]. eexists. split; [reflexivity|]. split; [now apply (plain_same st)|]. intros _ m. cbn [snd].
      unfold selected. destruct (Nat.eq_dec m n) as [->|N]; [rewrite V1|rewrite S1 by exact N]; destruct value; intuition (congruence || auto).
  - destruct (release_spec sc fuel Fu In_ st n O) as (s1 & E & O1 & H1 & S1). rewrite E. cbn [bind]. eexists. split; [reflexivity|]. split; [|intros _ m; cbn; unfold selected; now rewrite S1].
    destruct c; cbn in *; [|now apply (plain_same st)]. split; [exact O1|]. intros m.
    assert (Sx : shown sc s1 m <-> shown sc st m) by (split; apply same_shown; intros p; [symmetry|]; apply H1). rewrite Sx, (proj2 F m).
    assert (Se : forall p, selected s1 p <-> selected st p) by (intros p; unfold selected; now rewrite S1). split; intros (a & Ma & I); exists a; (split; [|exact I]); now apply (marked_same st s1 O O1 Se).
  - destruct c; cbn [in_mode].
    + destruct (outside_good l st F A) as (s1 & E & G1 & S1). change (in_mode true fuel sc) with osc. rewrite E. cbn [bind]. eexists. split; [reflexivity|]. split; [exact G1|intros _; exact S1].
    + destruct (outside_plain l st F A) as (s1 & E & G1 & S1). change (in_mode false fuel sc) with locked. rewrite E. cbn [bind]. eexists. split; [reflexivity|]. split; [exact G1|intros _; exact S1].
  - destruct c; cbn [in_mode].
    + destruct (clear_none st O) as (s1 & E & O1 & G1 & N1). change (in_mode true fuel sc) with osc. rewrite E. cbn [bind]. eexists. split; [reflexivity|]. split; [now apply G1|]. intros _ m. split; [apply N1|intros []].
    + change (in_mode false fuel sc) with locked. destruct (clear_spec sc fuel Fu In_ Tree locked ok (fun s H => H) locked_ok st O) as (s1 & E & O1 & _ & K). rewrite E. cbn [bind]. eexists. split; [reflexivity|].
      destruct K as [[-> N]|(s' & O' & H' & N' & T)]; [split; [exact F|intros _ m; split; [apply N|intros []]]|]. injection T as ->. split; [now apply (plain_same st)|]. intros _ m. split; [apply N'|intros []].
  - destruct (switch_good st O) as (s1 & E & G1). rewrite E. cbn [bind]. eexists. split; [reflexivity|]. split; [exact G1|congruence].
  - destruct (everything st O) as (s1 & E & P1 & S1). rewrite E. cbn [bind]. eexists. split; [reflexivity|]. split; [exact P1|intros _; exact S1].
Qed.

Lemma gestures_fine c l : Forall (about sc) l -> exists x, gestures_done fuel sc c l = Done x /\ fine x.
Proof.
  intros A. unfold gestures_done. cbn [for_each].
  assert (S1 : exists x, gesture_done fuel sc (c, fresh) (if c then Show_selected_chain else Show_everything) = Done x /\ fine x).
  { destruct c; cbn [gesture_done].
    - destruct (switch_good fresh (ok_fresh sc)) as (s1 & E & G). rewrite E. now exists (true, s1).
    - destruct (everything fresh (ok_fresh sc)) as (s1 & E & P & _). rewrite E. now exists (false, s1). }
  destruct S1 as (x & E & F). rewrite E. cbn [bind]. clear E. revert x F. induction A as [|g l A _ IH]; intros x F; cbn [for_each]; [now exists x|].
  destruct (gesture_fine x g F A) as (x1 & E1 & F1 & _). rewrite E1. cbn [bind]. now apply IH.
Qed.
End View.
