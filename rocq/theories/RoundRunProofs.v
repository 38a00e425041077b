(** Proofs about the lines of an axis, with doubles. *)
From Coq Require Import List Arith Bool ZArith QArith Qabs Lia Lqa Setoid Sorting.Sorted Sorting.Permutation.
From Verif Require Import IntervalModel IntervalSpec IntervalProofs InfraModel ManagerModel ManagerSpec ManagerProofs ManagerMeshProofs ManagerMoreProofs.
From Verif Require Import RoundModel RoundSpec RoundProofs RoundLinesProofs RoundSolveProofs RoundMeshProofs RoundCellProofs RoundAxisProofs.
Import ListNotations.
Open Scope Q_scope.

Section Run.
Variables M lo D : Q.
Let rho := rounding (4 * M).
Hypothesis Size : rho <= (1 # 64) * lo.
Hypothesis Low : 2 ^ (-990) <= lo.
Hypothesis High : 4 * M <= limit.
Hypothesis DM : D <= M.

(** ** Across a policy *)

Definition in_place (p : mlp) : Prop := is_double (p_coord p) /\ - M <= p_coord p <= M.

Lemma scaled_near c e d : 0 <= c <= 1 -> 0 <= e <= 1 -> c <= e + unit_roundoff -> 0 < d <= M -> double (c * d) <= e * d + 2 * rho.
Proof.
  intros C E K P. assert (X : 0 <= c * d <= M) by nra. pose proof (double_close M (c * d) ltac:(lra)) as B. fold rho in B.
  assert (Y : c * d <= e * d + unit_roundoff * M) by (assert (0 < unit_roundoff) by reflexivity; nra).
  assert (Z : unit_roundoff * M <= rho). { unfold rho. rewrite rounding_eq. assert (0 < smallest) by reflexivity. assert (0 < unit_roundoff) by reflexivity. nra. }
  lra.
Qed.
Lemma third_near : double (1 # 3) <= (1 # 3) + unit_roundoff. Proof. vm_compute. discriminate. Qed.
Lemma two_thirds_near : double (2 # 3) <= (2 # 3) + unit_roundoff. Proof. vm_compute. discriminate. Qed.

Lemma across_near p d1 d2 : in_place p -> consistent p -> is_oneline (p_policy p) = false -> is_double d1 -> is_double d2 -> 0 < d1 <= D -> 0 < d2 <= D ->
  let x := double (p_coord p - r_d_init_after double p d1) in let y := double (p_coord p + r_d_init_before double p d2) in
  y - x <= D + 9 * rho /\ x - y <= D + 9 * rho.
Proof.
  intros [Dc Rc] C O D1 D2 H1 H2 x y.
  assert (Pr : 0 < rho) by (apply rounding_pos; lra).
  assert (Up : r_d_init_after double p d1 + r_d_init_before double p d2 <= D + 4 * rho).
  { unfold consistent in C. unfold r_d_init_after, r_d_init_before. destruct (p_policy p); [discriminate| |].
    - rewrite !half_double.
      pose proof (scaled_near (1 # 2) (1 # 2) d1 ltac:(lra) ltac:(lra) ltac:(unfold unit_roundoff; lra) ltac:(lra)).
      pose proof (scaled_near (1 # 2) (1 # 2) d2 ltac:(lra) ltac:(lra) ltac:(unfold unit_roundoff; lra) ltac:(lra)). lra.
    - pose proof third_range. pose proof two_thirds_range.
      pose proof (fun d H => scaled_near (double (1 # 3)) (1 # 3) d third_range ltac:(lra) third_near H) as T1.
      pose proof (fun d H => scaled_near (double (2 # 3)) (2 # 3) d two_thirds_range ltac:(lra) two_thirds_near H) as T2.
      pose proof (T1 d1 ltac:(lra)). pose proof (T2 d1 ltac:(lra)). pose proof (T1 d2 ltac:(lra)). pose proof (T2 d2 ltac:(lra)).
      destruct (p_normal p); [exfalso; now apply C|lra|lra]. }
  destruct (proj1 inits_after p d1 d1 D1 D1 ltac:(lra)) as (A1 & A2 & _). destruct (proj1 inits_before p d2 d2 D2 D2 ltac:(lra)) as (B1 & B2 & _).
  assert (Lx : x <= p_coord p) by (apply double_le; [exact Dc|lra]). assert (Ly : p_coord p <= y) by (apply double_ge; [exact Dc|lra]).
  pose proof (double_close M (p_coord p - r_d_init_after double p d1) ltac:(lra)) as E1.
  pose proof (double_close M (p_coord p + r_d_init_before double p d2) ltac:(lra)) as E2. fold rho x in E1. fold rho y in E2. lra.
Qed.

(** ** The intervals side by side *)

Inductive drow : list mlp -> list (list Q) -> Prop :=
| drow_one p : drow [p] []
| drow_cons b a r c cs : dcell M D b a c -> drow (a :: r) cs -> drow (b :: a :: r) (c :: cs).

Definition darrives (pre : list Q) (p : mlp) : Prop :=
  if is_oneline (p_policy p) then exists u, pre = u ++ [p_coord p]
  else pre = [] \/ exists u d, pre = u ++ [double (p_coord p - r_d_init_after double p d)] /\ is_double d /\ 0 < d <= D.

Lemma drow_chain_from l cs : drow l cs -> Forall consistent l -> Forall in_place l -> forall p r pre, l = p :: r ->
  darrives pre p -> chain (D + 9 * rho) pre ->
  chain (D + 9 * rho) (pre ++ match cs with [] => [] | c :: cs => c ++ laid_out r cs end).
Proof.
  induction 1 as [p|b a r c cs C R IH]; intros Cons Pla p0 r0 pre E A W; inversion E; subst; clear E.
  { rewrite app_nil_r. assumption. }
  inversion Cons as [|? ? Cp Cr]; subst. inversion Pla as [|? ? Pp Pr]; subst. specialize (IH Cr Pr a r).
  destruct C as [Cw _ Im _ Cf Cl]. fold rho in Cw.
  assert (Wc : chain (D + 9 * rho) (pre ++ c ++ (if is_oneline (p_policy a) then [p_coord a] else []))).
  { unfold darrives in A. destruct (is_oneline (p_policy p0)) eqn:Op.
    - destruct A as (u & ->). rewrite <- app_assoc. cbn [app]. apply chain_app; assumption.
    - destruct A as [->|(u & d1 & -> & B1 & B2)]; [exact Cw|].
      destruct (Cf eq_refl) as (d2 & r' & Ec & B3 & B4). cbn [app] in Cw. rewrite Ec in *. rewrite <- app_assoc. cbn [app].
      apply chain_app; [exact W|]. split; [|exact Cw]. now apply across_near. }
  cbn [laid_out]. rewrite (app_assoc c), (app_assoc pre). apply IH; [reflexivity| |exact Wc].
  unfold darrives. destruct (is_oneline (p_policy a)) eqn:Oa.
  - rewrite app_assoc. eexists. reflexivity.
  - right. destruct (Cl eq_refl) as (d & r' & -> & B). exists (pre ++ r'), d. rewrite app_nil_r, app_assoc. now split.
Qed.
Lemma drow_chain l cs : drow l cs -> Forall consistent l -> Forall in_place l -> chain (D + 9 * rho) (laid_out l cs).
Proof.
  intros R Cons Pla. assert (exists p r, l = p :: r) as (p & r & ->) by (destruct R; eauto).
  cbn [laid_out]. destruct (is_oneline (p_policy p)) eqn:O.
  - eapply (drow_chain_from _ _ R Cons Pla p r [p_coord p]); [reflexivity| |exact I]. unfold darrives. rewrite O. exists []. reflexivity.
  - eapply (drow_chain_from _ _ R Cons Pla p r []); [reflexivity| |exact I]. unfold darrives. rewrite O. now left.
Qed.
Lemma drow_perm l cs : drow l cs -> Permutation (laid_out l cs) (concat cs ++ flat_map one l).
Proof.
  induction 1 as [p|b a r c cs C R IH].
  - cbn. rewrite !app_nil_r. reflexivity.
  - change (laid_out (b :: a :: r) (c :: cs)) with (one b ++ c ++ laid_out (a :: r) cs).
    change (flat_map one (b :: a :: r)) with (one b ++ flat_map one (a :: r)). change (concat (c :: cs)) with (c ++ concat cs).
    rewrite IH. rewrite !app_assoc.
    transitivity ((c ++ concat cs) ++ one b ++ flat_map one (a :: r)); [|rewrite !app_assoc; reflexivity].
    rewrite <- !app_assoc. rewrite (app_assoc c), (app_assoc c).
    transitivity ((one b ++ c ++ concat cs) ++ flat_map one (a :: r)); [rewrite <- !app_assoc; reflexivity|].
    rewrite (Permutation_app_comm (one b)). rewrite <- !app_assoc. reflexivity.
Qed.
Lemma drow_between l cs x : drow l cs -> In x (laid_out l cs) -> exists p q, In p l /\ In q l /\ p_coord p <= x <= p_coord q.
Proof.
  induction 1 as [p|b a r c cs C R IH]; intros X.
  - cbn in X. rewrite app_nil_r in X. destruct (is_oneline (p_policy p)); [|destruct X]. destruct X as [<-|[]]. exists p, p. repeat split; try lra; now left.
  - change (laid_out (b :: a :: r) (c :: cs)) with (one b ++ c ++ laid_out (a :: r) cs) in X. rewrite !in_app_iff in X. destruct X as [X|[X|X]].
    + unfold one in X. destruct (is_oneline (p_policy b)); [|destruct X]. destruct X as [<-|[]]. exists b, b. repeat split; try lra; now left.
    + exists b, a. split; [now left|]. split; [right; now left|]. now apply (dc_between _ _ _ _ _ C).
    + destruct (IH X) as (p & q & P & Q & L). exists p, q. split; [now right|]. split; [now right|exact L].
Qed.

(** ** The axis *)

Definition dsegment_cell (ax : axis) (s : segment) (c : list Q) : Prop :=
  exists b a, policy_at ax (sg_before s) b /\ policy_at ax (sg_after s) a /\ dcell M D b a c.
Lemma dcells_of ax cells : Forall2 (dcell_at M D ax) (seq 0 (length (ax_segments ax))) cells -> Forall2 (dsegment_cell ax) (ax_segments ax) cells.
Proof.
  assert (K : forall ss pre cells, ax_segments ax = pre ++ ss ->
    Forall2 (dcell_at M D ax) (seq (length pre) (length ss)) cells -> Forall2 (dsegment_cell ax) ss cells).
  { induction ss as [|s ss IH]; intros pre cs E F; cbn in F; inversion F as [|? ? ? ? H1 H2]; subst; constructor.
    - destruct H1 as (s' & b & a & Es & Pb & Pa & C). rewrite E, nth_error_app2, Nat.sub_diag in Es by lia.
      cbn in Es. inversion Es; subst. exists b, a. now split.
    - apply (IH (pre ++ [s])); [rewrite E, <- app_assoc; reflexivity|]. rewrite app_length. cbn. rewrite Nat.add_1_r. assumption. }
  apply (K _ []). reflexivity.
Qed.
Lemma make_drow ax l : forall ss pl cells, map (fun s => (sg_before s, sg_after s)) ss = combine l (tl l) ->
  Forall2 (policy_at ax) l pl -> Forall2 (dsegment_cell ax) ss cells -> l <> [] -> drow pl cells.
Proof.
  induction l as [|b [|a l] IH]; intros ss pl cells T F C N; [congruence| |].
  - cbn in T. destruct ss; [|discriminate]. inversion C; subst. inversion F as [|? ? ? ? F1 F2]; subst. inversion F2; subst. constructor.
  - cbn [tl combine] in T. destruct ss as [|s ss]; [discriminate|]. cbn [map] in T. inversion T as [[Mb Ma M']].
    inversion C as [|? c ? cs C1 C2]; subst. inversion F as [|? pb ? pl' F1 F2]; subst. inversion F2 as [|? pa ? pl'' F3 F4]; subst.
    destruct C1 as (b' & a' & Pb & Pa & Ce). unfold policy_at in *.
    assert (b' = pb) by congruence. assert (a' = pa) by congruence. subst b' a'.
    constructor; [exact Ce|]. eapply (IH ss); [exact M'|exact F2|exact C2|discriminate].
Qed.

Lemma mesh_policies_same l l' : Forall2 same_but_d l l' -> flat_map mesh_policy l' = flat_map mesh_policy l.
Proof.
  induction 1 as [|p p' l l' (C & P & _ & E) F IH]; [reflexivity|]. cbn. rewrite IH. f_equal. unfold mesh_policy. now rewrite C, P, E.
Qed.

(** An axis between detect_intervals and mesh. *)
Record dmeshable (ax : axis) (l : list nat) : Prop :=
  { dm_order : in_order ax l;
    dm_tiles : map (fun s => (sg_before s, sg_after s)) (ax_segments ax) = combine l (tl l);
    dm_fits : forall s b a, In s (ax_segments ax) -> policy_at ax (sg_before s) b -> policy_at ax (sg_after s) a -> fit M lo D lo b a (sg_iv s);
    dm_consistent : forall i p, enabled_at ax i p -> consistent p;
    dm_place : forall i p, enabled_at ax i p -> in_place p;
    dm_lines : ax_lines ax = [] }.

Lemma dmeshable_fits ax l i : dmeshable ax l -> (i < length (ax_segments ax))%nat -> fits M lo D lo ax i.
Proof.
  intros [O T R _ _ _] Li. destruct (nth_error (ax_segments ax) i) as [s|] eqn:Es; [|apply nth_error_None in Es; lia]. pose proof (nth_error_In _ _ Es) as I.
  assert (In (sg_before s, sg_after s) (combine l (tl l))) as J by (rewrite <- T; apply in_map_iff; now exists s).
  pose proof (in_combine_l _ _ _ _ J) as Jb. pose proof (in_combine_r _ _ _ _ J) as Ja.
  assert (In (sg_after s) l) as Ja' by (destruct l; [destruct Ja|right; exact Ja]).
  apply O in Jb. apply O in Ja'. destruct Jb as (b & Pb & _), Ja' as (a & Pa & _).
  exists s, b, a. split; [exact Es|]. split; [assumption|]. split; [assumption|]. now apply R.
Qed.

Lemma r_mesh_axis_ends srt ax l : sorts srt -> 0 <= D -> 0 < M -> dmeshable ax l ->
  exists ax', finishes (fun n => r_mesh_axis double n srt ax) ax' /\
    StronglySorted Qle (ax_lines ax') /\ within (D + 9 * rho) (ax_lines ax') /\
    (forall i p, enabled_at ax i p -> p_policy p = ONELINE -> In (p_coord p) (ax_lines ax')) /\
    (forall x, In x (ax_lines ax') -> exists i p j q, enabled_at ax i p /\ enabled_at ax j q /\ p_coord p <= x <= p_coord q) /\
    (forall s b a, In s (ax_segments ax) -> policy_at ax (sg_before s) b -> policy_at ax (sg_after s) a ->
       exists c, dcell M D b a c /\ forall x, In x c -> In x (ax_lines ax')) /\
    Forall2 same_but_d (ax_policies ax) (ax_policies ax') /\ ax_conflicts ax' = ax_conflicts ax.
Proof.
  intros S PD PM Me. pose proof (visiting_order_perm srt ax S) as Po. set (order := visiting_order srt ax) in *.
  assert (Nd : NoDup order) by (eapply Permutation_NoDup; [apply Permutation_sym; exact Po|apply seq_NoDup]).
  assert (Fi : forall i, In i order -> fits M lo D lo ax i).
  { intros i I. apply (Permutation_in _ Po) in I. apply in_seq in I. apply (dmeshable_fits ax l); [exact Me|lia]. }
  destruct (first_pass_ends M lo D Size Low High DM order ax Nd Fi) as (ax1 & F1 & V1 & K1 & _).
  destruct (second_pass_ends M lo D Size Low High DM order ax1 Nd K1) as (ax2 & lines & F2 & V2 & C2).
  assert (C : Forall2 (dcell_at M D ax) order lines) by (eapply forall2_impl; [|exact C2]; intros i c; eapply dcell_at_visited; eassumption).
  destruct (forall2_perm _ _ _ Po _ C) as (cells & Pc & Cc). apply dcells_of in Cc.
  pose proof (dm_order _ _ Me) as O.
  destruct (policies_exist ax l) as (pl & Fp).
  { intros i I. apply O in I. destruct I as (p & P & _). now exists p. }
  assert (Sp : Forall2 same_but_d (ax_policies ax) (ax_policies ax2)).
  { eapply forall2_trans; [apply same_but_d_trans| |].
    - eapply forall2_impl; [|apply (vi_policies _ _ _ V1)]. intros p q K. apply K.
    - eapply forall2_impl; [|apply (vi_policies _ _ _ V2)]. intros p q K. apply K. }
  set (all := ax_lines ax2 ++ concat lines ++ flat_map mesh_policy (ax_policies ax2)).
  assert (Hall : Permutation all (concat cells ++ flat_map one pl)).
  { unfold all. rewrite (vi_lines _ _ _ V2), (vi_lines _ _ _ V1), (dm_lines _ _ Me). cbn [app].
    rewrite (mesh_policies_same _ _ Sp), mesh_policies_filter. apply Permutation_app.
    - clear -Pc. induction Pc; cbn; [reflexivity|now apply Permutation_app_head| |etransitivity; eassumption].
      rewrite !app_assoc. apply Permutation_app_tail, Permutation_app_comm.
    - apply Permutation_flat_map, Permutation_sym. now apply in_order_perm with l. }
  destruct (sorts_q srt all S) as [Ps Ss].
  assert (Pr : 0 < rho) by (apply rounding_pos; lra).
  assert (Enabled : forall p, In p pl -> exists i, enabled_at ax i p).
  { intros p P. apply (Permutation_in _ (in_order_perm ax l pl O Fp)) in P. apply filter_In in P. destruct P as [P E]. apply In_nth_error in P. destruct P as (i & P). exists i. now split. }
  assert (Hw : within (D + 9 * rho) (srt Q (fun x => x) all) /\
    (forall x, In x (concat cells ++ flat_map one pl) -> exists i p j q, enabled_at ax i p /\ enabled_at ax j q /\ p_coord p <= x <= p_coord q)).
  { destruct (list_eq_dec Nat.eq_dec l []) as [->|Nl].
    - inversion Fp; subst. assert (ax_segments ax = []) as E0 by (pose proof (dm_tiles _ _ Me) as T; destruct (ax_segments ax); [reflexivity|discriminate]).
      rewrite E0 in Cc. inversion Cc; subst. cbn in Hall |- *. split; [|intros x []].
      apply Permutation_sym, Permutation_nil in Hall. rewrite Hall in Ps. apply Permutation_nil in Ps. rewrite Hall, Ps. exact I.
    - pose proof (make_drow ax l _ _ _ (dm_tiles _ _ Me) Fp Cc Nl) as Rw. split.
      + apply (chain_sorted _ (laid_out pl cells)); [lra| | |exact Ss].
        * apply drow_chain; [exact Rw| |]; apply Forall_forall; intros p P; destruct (Enabled p P) as (i & E); [eapply (dm_consistent _ _ Me)|eapply (dm_place _ _ Me)]; exact E.
        * rewrite (drow_perm _ _ Rw). etransitivity; [apply Permutation_sym; exact Hall|exact Ps].
      + intros x X. apply (Permutation_in _ (Permutation_sym (drow_perm _ _ Rw))) in X. destruct (drow_between _ _ x Rw X) as (p & q & P & Q & L).
        destruct (Enabled p P) as (i & Ei). destruct (Enabled q Q) as (j & Ej). exists i, p, j, q. now split. }
  destruct Hw as [Hw Hb].
  assert (Lines : forall x, In x (srt Q (fun x => x) all) <-> In x (concat cells ++ flat_map one pl)).
  { intros x. split; intros X.
    - apply (Permutation_in _ Hall), (Permutation_in _ (Permutation_sym Ps)). exact X.
    - apply (Permutation_in _ Ps), (Permutation_in _ (Permutation_sym Hall)). exact X. }
  exists (set_lines ax2 (srt Q (fun x => x) all)). cbn [set_lines ax_lines ax_policies ax_conflicts].
  split; [|split; [exact Ss|split; [exact Hw|split; [|split; [|split; [|split; [exact Sp|]]]]]]].
  - unfold r_mesh_axis. fold order.
    refine (finishes_bind (fun n => r_first_pass double n ax order) (fun n ax => _) _ _ F1 _).
    refine (finishes_bind (fun n => r_second_pass double n ax1 order)
      (fun n x => let (ax, lines) := x in Done (set_lines ax (srt Q (fun x => x) (ax_lines ax ++ concat lines ++ flat_map mesh_policy (ax_policies ax))))) _ _ F2 _).
    apply finishes_ret.
  - intros i p [P E] Op. apply Lines, in_app_iff. right. apply in_flat_map. exists p. split; [|unfold one; rewrite Op; now left].
    apply (Permutation_in _ (Permutation_sym (in_order_perm ax l pl O Fp))). apply filter_In. split; [eapply nth_error_In; exact P|exact E].
  - intros x X. apply Hb. now apply Lines.
  - intros s b a I Pb Pa. apply In_nth_error in I. destruct I as (k & Ek).
    destruct (forall2_nth _ _ _ _ _ Cc Ek) as (c & Ec & b' & a' & Pb' & Pa' & Ce). unfold policy_at in *.
    assert (b' = b) by congruence. assert (a' = a) by congruence. subst b' a'. exists c. split; [exact Ce|].
    intros x X. apply Lines, in_app_iff. left. apply in_concat. exists c. split; [eapply nth_error_In; exact Ec|exact X].
  - rewrite (vi_conflicts _ _ _ V2). apply (vi_conflicts _ _ _ V1).
Qed.
End Run.
