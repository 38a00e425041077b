(** Lists, materials, the solution of colinear edges. *)
From Coq Require Import List Arith Bool Lia QArith Qabs Lqa Sorting.Sorted Sorting.Permutation.
From Verif Require Import IntervalModel IntervalSpec IntervalProofs ManagerModel ManagerSpec ManagerProofs.
From Verif Require Import GeomModel GeomSpec GeomProofs BoardModel BoardSpec.
Import ListNotations.
Open Scope Q_scope.

(** * Consecutive matches *)

(** What [matches_loop] has built so far (both levels reversed): complete runs if
    [prev] is false, a last run that may go on if it is true. *)
Lemma matches_loop_app {A} (f : A -> bool) l : forall prev (last : list A) before,
  matches_loop f l prev (last :: before) =
  (if prev then matches_loop f l true [last] ++ before else matches_loop f l false [] ++ last :: before).
Proof.
  induction l as [|x l IH]; intros prev last before; cbn.
  - destruct prev; reflexivity.
  - destruct (f x) eqn:F; [|].
    + destruct prev; cbn.
      * rewrite (IH true (x :: last) before). reflexivity.
      * rewrite (IH true [x] (last :: before)). reflexivity.
    + destruct prev.
      * rewrite (IH false last before), (IH false last []). rewrite <- app_assoc. reflexivity.
      * rewrite (IH false last before). reflexivity.
Qed.

Lemma gap_more {A} (f : A -> bool) x l rs : f x = false -> maximal_runs f l rs -> maximal_runs f (x :: l) rs.
Proof.
  intros F H. destruct H.
  - constructor. now constructor.
  - apply (runs_last f (x :: gap)); [now constructor|assumption|assumption].
  - apply (runs_more f (x :: gap)); [now constructor|assumption|assumption|assumption|assumption].
Qed.

Lemma matches_runs {A} (f : A -> bool) l :
  maximal_runs f l (rev (map (@rev A) (matches_loop f l false [])))
  /\ forall last, last <> [] -> Forall (fun x => f x = true) last ->
       maximal_runs f (rev last ++ l) (rev (map (@rev A) (matches_loop f l true [last]))).
Proof.
  induction l as [|x l [IH1 IH2]]; split; cbn.
  - constructor. constructor.
  - intros last N F. rewrite app_nil_r. apply (runs_last f []); [constructor| |now apply Forall_rev].
    intro E. apply N. apply (f_equal (@rev A)) in E. now rewrite rev_involutive in E.
  - destruct (f x) eqn:F.
    + apply (IH2 [x]); [discriminate|]. now repeat constructor.
    + now apply gap_more.
  - intros last N Fl. destruct (f x) eqn:F.
    + replace (rev last ++ x :: l) with (rev (x :: last) ++ l) by (cbn; now rewrite <- app_assoc).
      apply IH2; [discriminate|]. now constructor.
    + rewrite matches_loop_app, map_app, rev_app_distr. cbn.
      apply (runs_more f []); [constructor| |now apply Forall_rev|assumption|assumption].
      intro E. apply N. apply (f_equal (@rev A)) in E. now rewrite rev_involutive in E.
Qed.

Lemma runs_concat {A} (f : A -> bool) l rs : maximal_runs f l rs -> concat rs = filter f l.
Proof.
  assert (G : forall g, Forall (fun x => f x = false) g -> filter f g = []).
  { induction 1 as [|x g E _ IH]; cbn; [reflexivity|]. now rewrite E. }
  assert (T : forall r, Forall (fun x => f x = true) r -> filter f r = r).
  { induction 1 as [|x g E _ IH]; cbn; [reflexivity|]. now rewrite E, IH. }
  induction 1 as [gap Hg|gap r Hg Hn Hr|gap r x rest rs Hg Hn Hr Hx _ IH]; cbn.
  - now rewrite G.
  - now rewrite filter_app, G, T, app_nil_r.
  - rewrite !filter_app, G, T, IH by assumption. cbn. now rewrite Hx.
Qed.

Lemma runs_good {A} (f : A -> bool) l rs : maximal_runs f l rs -> Forall (fun r => r <> [] /\ Forall (fun x => f x = true) r) rs.
Proof. induction 1; repeat constructor; assumption. Qed.

(** The specification leaves no choice. *)
Lemma first_gap {A} (f : A -> bool) g r g' r' :
  Forall (fun x => f x = false) g -> Forall (fun x => f x = false) g' ->
  (exists y t, r = y :: t /\ f y = true) -> (exists y t, r' = y :: t /\ f y = true) ->
  g ++ r = g' ++ r' -> g = g' /\ r = r'.
Proof.
  revert g'. induction g as [|x g IH]; intros g' H H' (y & t & -> & Fy) (y' & t' & -> & Fy') E.
  - destruct g' as [|x' g']; cbn in E; [now split|]. inversion H'; subst. injection E as -> _. congruence.
  - destruct g' as [|x' g']; cbn in E.
    + injection E as -> _. inversion H; congruence.
    + injection E as -> E. inversion H; inversion H'; subst. destruct (IH g') as [-> ->]; eauto.
Qed.

Lemma first_run {A} (f : A -> bool) r t r' t' :
  Forall (fun x => f x = true) r -> Forall (fun x => f x = true) r' ->
  (forall y u, t = y :: u -> f y = false) -> (forall y u, t' = y :: u -> f y = false) ->
  r ++ t = r' ++ t' -> r = r' /\ t = t'.
Proof.
  revert r'. induction r as [|x r IH]; intros r' H H' K K' E.
  - destruct r' as [|x' r']; cbn in E; [now split|]. inversion H'; subst. rewrite (K x' (r' ++ t')) in H2; congruence.
  - destruct r' as [|x' r']; cbn in E.
    + inversion H; subst. rewrite (K' x (r ++ t)) in H2; congruence.
    + injection E as -> E. inversion H; inversion H'; subst. destruct (IH r') as [-> ->]; eauto.
Qed.

Lemma runs_unique {A} (f : A -> bool) l rs : maximal_runs f l rs -> forall rs', maximal_runs f l rs' -> rs = rs'.
Proof.
  assert (N : forall gap, Forall (fun x => f x = false) gap -> forall (r t : list A) g, r <> [] -> Forall (fun x => f x = true) r -> gap <> g ++ r ++ t).
  { intros gap H r t g Nr Fr E. destruct r as [|x r]; [congruence|]. inversion Fr; subst.
    assert (In x (g ++ (x :: r) ++ t)) as I by (apply in_or_app; right; now left).
    rewrite Forall_forall in H. rewrite (H x I) in H2. discriminate. }
  assert (Hd : forall (r t : list A), r <> [] -> Forall (fun x => f x = true) r -> exists y u, r ++ t = y :: u /\ f y = true).
  { intros [|y u] t Nr Fr; [congruence|]. inversion Fr; subst. exists y, (u ++ t). now split. }
  induction 1 as [gap Hg|gap r Hg Hn Hr|gap r x rest rs Hg Hn Hr Hx H IH]; intros rs' H'.
  - inversion H'; subst; [reflexivity| |].
    + exfalso. apply (N _ Hg r [] gap0); [assumption|assumption|now rewrite app_nil_r].
    + exfalso. eapply (N _ Hg r (x :: rest) gap0); eauto.
  - inversion H' as [gap' Hg'|gap' r' Hg' Hn' Hr' E|gap' r' x' rest' rs2 Hg' Hn' Hr' Hx' H2 E]; subst.
    + exfalso. apply (N _ Hg' r [] gap); [assumption|assumption|now rewrite app_nil_r].
    + destruct (first_gap f gap' r' gap r) as [_ ->]; try assumption; try reflexivity.
      * rewrite <- (app_nil_r r'). now apply Hd.
      * rewrite <- (app_nil_r r). now apply Hd.
    + exfalso. destruct (first_gap f gap' (r' ++ x' :: rest') gap r) as [_ E2]; try assumption.
      * now apply Hd.
      * rewrite <- (app_nil_r r). now apply Hd.
      * destruct (first_run f r' (x' :: rest') r []) as [_ E3]; try assumption; try discriminate.
        -- intros y u K. injection K as <- _. assumption.
        -- now rewrite app_nil_r.
  - inversion H' as [gap' Hg'|gap' r' Hg' Hn' Hr' E|gap' r' x' rest' rs2 Hg' Hn' Hr' Hx' H2 E]; subst.
    + exfalso. eapply (N _ Hg' r (x :: rest) gap); eauto.
    + exfalso. destruct (first_gap f gap' r' gap (r ++ x :: rest)) as [_ E2]; try assumption.
      * rewrite <- (app_nil_r r'). now apply Hd.
      * now apply Hd.
      * destruct (first_run f r' [] r (x :: rest)) as [_ E3]; try assumption; try discriminate.
        -- intros y u K. injection K as <- _. assumption.
        -- now rewrite app_nil_r.
    + destruct (first_gap f gap' (r' ++ x' :: rest') gap (r ++ x :: rest)) as [_ E2]; try assumption; try (now apply Hd).
      destruct (first_run f r' (x' :: rest') r (x :: rest)) as [-> E3]; try assumption.
      * intros y u K. injection K as <- _. assumption.
      * intros y u K. injection K as <- _. assumption.
      * injection E3 as -> ->. f_equal. now apply IH.
Qed.

(** * Materials *)

Lemma mat_compare_rank a b : mat_compare a b = Nat.compare (rank a) (rank b).
Proof. destruct a, b; reflexivity. Qed.

Lemma mat_ltb_rank a b : mat_ltb a b = true <-> (rank a < rank b)%nat.
Proof. destruct a, b; cbn; split; intro H; try discriminate; try reflexivity; lia. Qed.

Lemma mat_gtb_rank a b : mat_gtb a b = true <-> (rank b < rank a)%nat.
Proof. destruct a, b; cbn; split; intro H; try discriminate; try reflexivity; lia. Qed.

Lemma ambient_ltb_spec a b : ambient_ltb a b = false <-> above a b.
Proof.
  unfold ambient_ltb, above. destruct (Nat.eqb_spec (snd a) (snd b)) as [E|N]; cbn [negb].
  - rewrite <- not_true_iff_false, mat_ltb_rank. lia.
  - rewrite Nat.ltb_ge. lia.
Qed.

Lemma ambient_weak l : weak_order ambient_ltb l.
Proof.
  assert (T : forall x y, ambient_ltb x y = true <-> ~ above x y).
  { intros x y. rewrite <- ambient_ltb_spec. destruct (ambient_ltb x y); intuition discriminate. }
  split; [|split].
  - intros x _. apply ambient_ltb_spec. unfold above. lia.
  - intros x y z _ _ _. rewrite !T. unfold above. lia.
  - intros x y z _ _ _. rewrite !ambient_ltb_spec. unfold above. lia.
Qed.

Lemma candidates_in current bnd l x : In x (ambient_candidates current bnd l) <->
  exists i g, In (i, g) l /\ g_material g = Some (fst x) /\ g_priority g = snd x
    /\ (forall j c, current = Some (j, c) -> i <> j /\ overlap_z (g_z g) (g_z c) = true)
    /\ overlap2 (g_bounding g) bnd = true.
Proof.
  induction l as [|[i g] l IH]; cbn [ambient_candidates].
  - split; [intros []|]. intros (i & g & [] & _).
  - assert (Q0 : forall c, match c with None => true | Some (j, c) => negb (i =? j)%nat && overlap_z (g_z g) (g_z c) end = true
      <-> forall j c', c = Some (j, c') -> i <> j /\ overlap_z (g_z g) (g_z c') = true).
    { intros [[j c]|]; [|split; [discriminate|reflexivity]].
      rewrite andb_true_iff, negb_true_iff, Nat.eqb_neq. split.
      - intros H j' c' E. injection E as <- <-. exact H.
      - intros H. now apply H. }
    assert (Cons : (exists i0 g0, In (i0, g0) ((i, g) :: l) /\ g_material g0 = Some (fst x) /\ g_priority g0 = snd x
        /\ (forall j c, current = Some (j, c) -> i0 <> j /\ overlap_z (g_z g0) (g_z c) = true)
        /\ overlap2 (g_bounding g0) bnd = true) <->
      (g_material g = Some (fst x) /\ g_priority g = snd x
        /\ (forall j c, current = Some (j, c) -> i <> j /\ overlap_z (g_z g) (g_z c) = true)
        /\ overlap2 (g_bounding g) bnd = true) \/ In x (ambient_candidates current bnd l)).
    { rewrite IH. split.
      - intros (i0 & g0 & [E|I] & H); [injection E as -> ->; now left|right; exists i0, g0; now split].
      - intros [H|(i0 & g0 & I & H)]; [exists i, g|exists i0, g0]; (split; [now (left + right)|assumption]). }
    rewrite Cons. destruct (g_material g) as [m|]; [|split; [now right|]; intros [(H & _)|H]; [discriminate|assumption]].
    destruct (_ && overlap2 _ _) eqn:E.
    + apply andb_true_iff in E. destruct E as [E1 E2]. rewrite Q0 in E1. cbn. split.
      * intros [<-|H]; [left; cbn; tauto|now right].
      * intros [(H1 & H2 & _)|H]; [left; injection H1 as ->; rewrite H2; now destruct x|now right].
    + split; [now right|]. intros [(_ & _ & H3 & H4)|H]; [|assumption].
      exfalso. apply Q0 in H3. rewrite H3, H4 in E. discriminate.
Qed.

Lemma last_in {A} (l : list A) d : l <> [] -> In (last l d) l.
Proof.
  induction l as [|p l IH]; intro H; [congruence|].
  destruct l as [|q l]; [now left|]. right. apply IH. discriminate.
Qed.

Lemma last_sorted {A} (R : A -> A -> Prop) l d : StronglySorted R l -> forall x, In x l -> x = last l d \/ R x (last l d).
Proof.
  induction 1 as [|y l S IH F]; intros x I; [destruct I|]. destruct l as [|z l].
  - destruct I as [<-|[]]. now left.
  - destruct I as [<-|I]; [right|].
    + rewrite Forall_forall in F. apply F. change (last (y :: z :: l) d) with (last (z :: l) d). apply last_in. discriminate.
    + apply IH. assumption.
Qed.

Lemma plane_eqb_eq a b : plane_eqb a b = true <-> a = b.
Proof. destruct a, b; cbn; split; intro; congruence. Qed.

Lemma ambient_iff b p s current x :
  In x (ambient_candidates current (seg_bounding s) (filter (fun x => plane_eqb (g_plane (snd x)) p) (view (b_polygons b))))
  <-> ambient b p s current x.
Proof.
  rewrite candidates_in. unfold ambient. split; intros (i & g & H).
  - destruct H as (I & M & P & C & O). apply filter_In in I. destruct I as [I E]. apply view_in in I. apply plane_eqb_eq in E. cbn in E.
    exists i, g. split; [assumption|]. split; [assumption|]. split; [assumption|]. split; [assumption|]. split.
    + intros j c K. destruct (C j c K) as [N Z]. split; [assumption|]. now apply overlap_side_point in Z.
    + now apply overlap2_point.
  - destruct H as (I & E & M & P & C & O). exists i, g. split; [apply filter_In; split; [now apply view_in|now apply plane_eqb_eq]|].
    split; [assumption|]. split; [assumption|]. split.
    + intros j c K. destruct (C j c K) as [N Z]. split; [assumption|]. now apply overlap_side_point.
    + now apply overlap2_point.
Qed.

Lemma find_ambient_spec srt b p s current m n : sorts_by srt -> find_ambient srt b p s current = (m, n) ->
  ((forall x, ~ ambient b p s current x) /\ m = b_background b /\ n = 0%nat)
  \/ (exists k, m = Some k /\ ambient b p s current (k, n) /\ forall x, ambient b p s current x -> above (k, n) x).
Proof.
  intros S E. unfold find_ambient in E.
  set (l := ambient_candidates _ _ _) in E.
  assert (L : forall x, In x l <-> ambient b p s current x) by (intro; apply ambient_iff).
  destruct (S _ ambient_ltb l (ambient_weak l)) as [P O].
  destruct (srt _ ambient_ltb l) as [|x r] eqn:D.
  - left. split; [|split; congruence]. intros x H. apply L in H. apply Permutation_sym, Permutation_nil in P. rewrite P in H. destruct H.
  - right. destruct (last (x :: r) x) as [k n'] eqn:La. injection E as <- <-.
    assert (In (k, n') (x :: r)) as I by (rewrite <- La; apply last_in; discriminate).
    exists k. split; [reflexivity|]. split.
    + apply L. eapply Permutation_in; [apply Permutation_sym; eassumption|assumption].
    + intros y H. apply L in H. apply (Permutation_in _ P) in H.
      destruct (last_sorted _ _ x O y H) as [K|K]; rewrite La in K.
      * subst y. unfold above. lia.
      * now apply ambient_ltb_spec in K.
Qed.

(** * The solution of colinear edges *)

Lemma faces_spec e : faces e = cast_normal (effective_normal e).
Proof. unfold faces, effective_normal. destruct (e_normal e), (e_to_reverse e); reflexivity. Qed.

Lemma count_normals_spec l : forall nmin nmax nmin' nmax' one, count_normals l nmin nmax = (nmin', nmax', one) ->
  (one = true <-> some_faces l NNONE) /\
  (one = false -> ((nmin < nmin')%nat <-> some_faces l NMIN) /\ ((nmax < nmax')%nat <-> some_faces l NMAX)
     /\ (nmin <= nmin')%nat /\ (nmax <= nmax')%nat).
Proof.
  assert (Nil : forall n, ~ some_faces [] n) by (intros n (e & [] & _)).
  assert (Cons : forall e l n, some_faces (e :: l) n <-> (e_to_mesh e = true /\ faces e = n) \/ some_faces l n).
  { intros e l' n. split.
    - intros (x & [<-|I] & H); [now left|right; exists x; now split].
    - intros [H|(x & I & H)]; [exists e|exists x]; (split; [now (left + right)|assumption]). }
  induction l as [|e l IH]; intros nmin nmax nmin' nmax' one E; cbn in E.
  - injection E as <- <- <-. split; [split; [discriminate|intro H; now apply Nil in H]|].
    intros _. split; [|split; [|lia]]; (split; [lia|intro H; now apply Nil in H]).
  - destruct (e_to_mesh e) eqn:M.
    + assert (F := faces_spec e). destruct (effective_normal e); cbn in F;
        try (specialize (IH _ _ _ _ _ E); destruct IH as [IH1 IH2]; split;
             [rewrite Cons, F, IH1; split; [tauto|intros [[_ K]|K]; [discriminate|assumption]]|];
             intro O; specialize (IH2 O); destruct IH2 as (A & B & C & D);
             split; [|split; [|lia]]; rewrite Cons, F, <- ?A, <- ?B; split; intros;
             repeat match goal with H : _ \/ _ |- _ => destruct H | H : _ /\ _ |- _ => destruct H end; try discriminate; try lia; auto;
             first [left; split; [reflexivity|congruence] | right; lia]).
      injection E as <- <- <-. split; [|discriminate]. split; [|reflexivity]. intros _. apply Cons. left. now split.
    + specialize (IH _ _ _ _ _ E). destruct IH as [IH1 IH2]. split; [rewrite IH1, Cons, M; intuition discriminate|].
      intro O. specialize (IH2 O). rewrite !Cons, M. intuition discriminate.
Qed.

Lemma colinear_policy_spec l :
  match colinear_policy l with
  | Some (ONELINE, n) => n = NNONE /\ some_faces l NNONE
  | Some (HALFS, n) => n = NNONE /\ ~ some_faces l NNONE /\ some_faces l NMIN /\ some_faces l NMAX
  | Some (THIRDS, n) => n <> NNONE /\ some_faces l n /\ ~ some_faces l NNONE /\ ~ some_faces l (swapped n)
  | None => forall n, ~ some_faces l n
  end.
Proof.
  unfold colinear_policy. destruct (count_normals l 0 0) as [[nmin nmax] one] eqn:E.
  apply count_normals_spec in E. destruct E as [E1 E2]. destruct one.
  - split; [reflexivity|]. now apply E1.
  - destruct (E2 eq_refl) as (A & B & _ & _).
    assert (N : ~ some_faces l NNONE) by (intro H; apply E1 in H; discriminate).
    destruct nmin as [|nmin], nmax as [|nmax]; cbn [swapped].
    + intros n; destruct n; first [assumption|rewrite <- A; lia|rewrite <- B; lia].
    + split; [discriminate|]. rewrite <- A, <- B. split; [lia|]. split; [assumption|lia].
    + split; [discriminate|]. rewrite <- A, <- B. split; [lia|]. split; [assumption|lia].
    + split; [reflexivity|]. rewrite <- A, <- B. split; [assumption|lia].
Qed.

(** The answer is determined by which sides are faced. *)
Lemma colinear_policy_determined l l' : (forall n, some_faces l n <-> some_faces l' n) -> colinear_policy l = colinear_policy l'.
Proof.
  intros H. pose proof (colinear_policy_spec l) as A. pose proof (colinear_policy_spec l') as B.
  pose proof (H NNONE) as H1. pose proof (H NMIN) as H2. pose proof (H NMAX) as H3. clear H.
  destruct (colinear_policy l) as [[[| |] [| |]]|], (colinear_policy l') as [[[| |] [| |]]|]; cbn [swapped] in A, B;
    try reflexivity; exfalso;
    try (pose proof (A NNONE); pose proof (A NMIN); pose proof (A NMAX));
    try (pose proof (B NNONE); pose proof (B NMIN); pose proof (B NMAX)); intuition congruence.
Qed.
