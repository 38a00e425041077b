(** Boards on which rounding spoils the lines or keeps the run from ending. *)
From Coq Require Import List Arith Bool ZArith QArith Qabs Qpower Lia Lqa Setoid Sorting.Sorted Sorting.Permutation.
From Verif Require Import IntervalModel IntervalSpec IntervalProofs InfraModel InfraNumberProofs ManagerModel ManagerSpec ManagerProofs ManagerMeshProofs ManagerMoreProofs.
From Verif Require Import RoundModel RoundSpec RoundProofs RoundLinesProofs RoundSolveProofs RoundDetectProofs.
Import ListNotations.
Open Scope Q_scope.

(** ** A sum that is stuck *)

Lemma stuck_loop s n : forall cs, 9007199254740992 < s -> cs <= 9007199254740992 -> r_find_ls_loop double n 2 1 s 1 cs = None.
Proof.
  induction n as [|n IH]; intros cs L C; [reflexivity|]. cbn [r_find_ls_loop].
  destruct (Qltb_spec cs s) as [K|K]; [|lra]. change (r_next_space double 2 1 1) with 1.
  rewrite IH; [reflexivity|exact L|]. apply Qle_trans with (double (9007199254740992 + 1)).
  - apply double_mono. lra.
  - vm_compute. discriminate.
Qed.

Definition far_params : params := mk_params 1 2 2 1.
Definition far_axis : axis := mk_axis [mk_mlp 0 ONELINE NNONE true 1; mk_mlp 36028797018963968 ONELINE NNONE true 1] [] [] [].

Lemma stuck_axis : exists ax, r_detect_intervals double far_params isort far_axis = Done ax /\ loops (fun n => r_mesh_axis double n isort ax).
Proof.
  eexists. split; [vm_compute; reflexivity|]. intros n.
  unfold r_mesh_axis. change (visiting_order isort _) with [0%nat]. cbn [r_first_pass].
  unfold r_auto_solve_d_at, read. cbn [ax_segments ax_policies nth_error bind sg_before sg_after sg_iv].
  unfold r_auto_solve_d, r_update_ls, r_find_ls. cbn [iv_h iv_dmax iv_before iv_after p_d sd_smoothness].
  change (qmin 1 1) with 1. rewrite stuck_loop; [reflexivity|reflexivity|discriminate].
Qed.

(** ** Cells that can not be small enough *)

(** 1000000.1 *)
Definition wide_dmax : Q := Eval vm_compute in Qred (double (10000001 # 10)).

(** Two consecutive elements farther apart than is tolerated. *)
Definition torn (dmax : Q) (l : list Q) : Prop :=
  exists u a b v, l = u ++ a :: b :: v /\ double (dmax + r_tolerance double) < double (b - a).

Lemma torn_cons dmax x l : torn dmax l -> torn dmax (x :: l).
Proof. intros (u & a & b & v & -> & H). exists (x :: u), a, b, v. now split. Qed.

Lemma spaces_torn dmax sm l : forall a b, torn dmax (a :: b :: l) -> Qltb (double (dmax + r_tolerance double)) (double (b - a)) = false -> r_spaces_valid double sm dmax a b l = false.
Proof.
  induction l as [|c l IH]; intros a b (u & x & y & v & E & H) N.
  - exfalso. destruct u as [|? [|? u]]; cbn in E; try discriminate; [|destruct u; discriminate].
    injection E as -> -> <-. apply Qltb_ge in N. apply (Qlt_irrefl (double (y - x))). eapply Qle_lt_trans; eassumption.
  - cbn [r_spaces_valid]. destruct (Qltb (double (dmax + r_tolerance double)) (double (c - b))) eqn:K; [now rewrite orb_true_r|].
    destruct (Qltb (double (double (sm * double (b - a)) + r_tolerance double)) (double (c - b))); [reflexivity|]. cbn [orb]. apply IH; [|exact K].
    destruct u as [|z u]; cbn in E.
    + exfalso. injection E as -> -> _. apply Qltb_ge in N. apply (Qlt_irrefl (double (y - x))). eapply Qle_lt_trans; eassumption.
    + injection E as _ E. exists u, x, y, v. now split.
Qed.
Lemma valid_torn dmax ls d sm lmin : torn dmax ls -> r_is_ls_valid double ls d sm dmax lmin = false.
Proof.
  intros T. unfold r_is_ls_valid. destruct (_ || _ || _); [reflexivity|]. destruct ls as [|a [|b r]]; [reflexivity| |].
  - destruct T as ([|? [|? u]] & x & y & v & E & _); discriminate.
  - destruct (_ || _); [reflexivity|].
    destruct (Qltb (double (dmax + r_tolerance double)) (double (b - a))) eqn:K; [now rewrite orb_true_r|].
    destruct (Qltb (double (double (sm * a) + r_tolerance double)) (double (b - a))); [reflexivity|]. cbn [orb]. now apply spaces_torn.
Qed.

(** Beyond 2^28 doubles are 2^-24 apart. *)
Lemma sparse x : is_double x -> 268435456 <= x < 536870912 -> exists m, x == inject_Z m * 2 ^ (-24).
Proof.
  intros D [L U]. assert (P : 0 < x) by lra.
  assert (K : log2 x = 28%Z) by (apply log2_unique; [exact L|exact U]).
  destruct (double_multiple x x P D) as (n & E); [left; rewrite K; exact L|].
  exists n. unfold last_bit in E. rewrite K in E. exact E.
Qed.

(** The number of steps of 2^-24 in 1000000.1 is 16777217677721.6. *)
Lemma torn_step x : is_double x -> 268435456 <= x <= 300000000 -> double (wide_dmax + r_tolerance double) < double (double (x + wide_dmax) - x).
Proof.
  intros D [L U]. destruct (sparse x D) as (m & E); [lra|].
  assert (F : double (x + wide_dmax) == inject_Z (m + 16777217677722) * 2 ^ (-24)).
  { assert (W : 1000000 <= wide_dmax <= 1000001) by (split; vm_compute; discriminate).
    assert (K : log2 (x + wide_dmax) = 28%Z) by (apply log2_unique; [change (2 ^ 28) with 268435456|change (2 ^ (28 + 1)) with 536870912]; lra).
    rewrite double_of_pos by lra. unfold last_bit. rewrite K. change (Z.max (28 - 52) (-1074)) with (-24)%Z.
    rewrite (round_even_comp _ (inject_Z m + wide_dmax * 16777216)) by (rewrite E; change (2 ^ (-24)) with (1 # 16777216); field).
    replace (round_even (inject_Z m + wide_dmax * 16777216)) with (m + 16777217677722)%Z; [reflexivity|].
    pose proof (round_even_near (inject_Z m + wide_dmax * 16777216)) as N. set (r := round_even _) in *. clearbody r.
    assert (V : 16777217677721 + (55 # 100) <= wide_dmax * 16777216 <= 16777217677721 + (65 # 100)) by (split; vm_compute; discriminate).
    assert (A : inject_Z (m + 16777217677721) < inject_Z r) by (rewrite inject_Z_plus; change (inject_Z 16777217677721) with 16777217677721; lra).
    assert (B : inject_Z r < inject_Z (m + 16777217677723)) by (rewrite inject_Z_plus; change (inject_Z 16777217677723) with 16777217677723; lra).
    rewrite <- Zlt_Qlt in A, B. lia. }
  apply Qlt_le_trans with (double (16777217677722 * 2 ^ (-24))); [vm_compute; reflexivity|].
  apply double_mono. rewrite F, inject_Z_plus, E. change (inject_Z 16777217677722) with 16777217677722. lra.
Qed.

(** The sizes double until they are [wide_dmax]. *)
Lemma wide_double : is_double wide_dmax.
Proof. exists 8589935450993459%Z, (-33)%Z. split; [vm_compute; discriminate|]. split; [lia|]. vm_compute. reflexivity. Qed.

Lemma twice_double x : is_double x -> is_double (x * 2).
Proof. intros D. apply (is_double_scaled x 1); [lia|exact D]. Qed.

Lemma torn_from s n : forall cd cs ls, 400000000 <= s -> is_double cd -> is_double cs -> 0 <= cd <= wide_dmax -> 0 <= cs <= 300000000 ->
  (cd < wide_dmax -> cs <= 2 * cd) -> r_find_ls_loop double n 2 wide_dmax s cd cs = Some ls ->
  torn wide_dmax (cs :: ls) /\ (cs < 268435456 -> torn wide_dmax ls).
Proof.
  assert (W : 1000000 <= wide_dmax <= 1000001) by (split; vm_compute; discriminate).
  induction n as [|n IH]; intros cd cs ls Ls Dd Ds Pd Ps Inv E; [discriminate|]. cbn [r_find_ls_loop] in E.
  destruct (Qltb_spec cs s) as [K|K]; [|lra].
  set (d := r_next_space double 2 wide_dmax cd) in *. set (x := double (cs + d)) in *.
  destruct (r_find_ls_loop double n 2 wide_dmax s d x) as [r|] eqn:F; [|discriminate]. injection E as <-.
  assert (Rd : is_double d /\ 0 <= d <= wide_dmax /\ (d < wide_dmax -> d == 2 * cd /\ cd < wide_dmax)).
  { unfold d, r_next_space. destruct (Qltb_spec cd wide_dmax) as [A|A]; [|split; [exact Dd|split; [lra|intros; lra]]]. cbv zeta.
    assert (Eq : double (cd * 2) == cd * 2) by (apply double_fixed, twice_double; exact Dd).
    destruct (Qltb_spec wide_dmax (double (cd * 2))) as [B|B].
    - split; [exact wide_double|]. split; [lra|intros; lra].
    - split; [apply double_is_double|]. split; [split; [apply double_nonneg; lra|exact B]|]. intros _. split; [rewrite Eq; ring|exact A]. }
  destruct Rd as (Dd' & Rd & Inv').
  destruct (Qlt_le_dec cs 268435456) as [C|C].
  - assert (T : torn wide_dmax (x :: r)).
    { refine (proj1 (IH d x r Ls Dd' (double_is_double _) Rd _ _ F)); [|intros Ld].
      - split; [apply double_nonneg; lra|]. apply double_le; [|lra].
        exists 300000000%Z, 0%Z. split; [vm_compute; discriminate|]. split; [lia|reflexivity].
      - destruct (Inv' Ld) as (Ed & Lc). specialize (Inv Lc). apply double_le; [|lra].
        apply (is_double_comp (d * 2)); [ring|now apply twice_double]. }
    split; [now apply torn_cons|]. intros _. exact T.
  - split; [|lra]. assert (Ec : d = wide_dmax \/ d == wide_dmax).
    { destruct (Qlt_le_dec d wide_dmax) as [Ld|Ld]; [|right; lra]. destruct (Inv' Ld) as (_ & Lc). specialize (Inv Lc). lra. }
    exists [], cs, x, r. split; [reflexivity|].
    apply Qlt_le_trans with (double (double (cs + wide_dmax) - cs)); [apply torn_step; [exact Ds|lra]|].
    apply double_mono. assert (double (cs + wide_dmax) <= x) by (apply double_mono; destruct Ec as [-> |Ec]; lra). lra.
Qed.

Lemma torn_find n d s ls : is_double d -> 0 < d -> 400000000 <= s -> r_find_ls double n d 2 wide_dmax s = Some ls -> torn wide_dmax ls.
Proof.
  intros D P S E. unfold r_find_ls in E.
  assert (W : 1000000 <= wide_dmax <= 1000001) by (split; vm_compute; discriminate).
  assert (Q : is_double (qmin d wide_dmax)) by (apply qmin_double; [exact D|exact wide_double]).
  pose proof (qmin_le_r d wide_dmax). pose proof (qmin_pos d wide_dmax P ltac:(lra)).
  refine (proj2 (torn_from s n _ 0 ls S Q is_double_0 _ _ _ E) _); lra.
Qed.

Lemma lowered_pos d : is_double d -> 0 < d -> is_double (double (d - double (d / 1000))) /\ 0 < double (d - double (d / 1000)).
Proof.
  intros D P. split; [apply double_is_double|].
  assert (T : 2 ^ (-1074) <= d).
  { destruct D as (m & e & Hm & He & E). rewrite E in *. assert (0 < m)%Z.
    { destruct (Z_lt_le_dec 0 m) as [K|K]; [exact K|]. assert (inject_Z m <= 0) by (change 0 with (inject_Z 0); now apply Zle_Qle in K || (rewrite <- Zle_Qle; exact K)). pose proof (two_pos e). nra. }
    assert (1 <= inject_Z m) by (change 1 with (inject_Z 1); rewrite <- Zle_Qle; lia). pose proof (two_le (-1074) e He). pose proof (two_pos (-1074)). nra. }
  assert (E : d / 1000 == (1 # 1000) * d) by field.
  assert (V : 0 <= double (d / 1000) <= (2 # 1000) * d).
  { split; [apply double_nonneg; lra|]. pose proof (double_nearest (d / 1000) 0 is_double_0) as N. set (v := double (d / 1000)) in *. clearbody v.
    setoid_replace (0 - d / 1000) with (- (d / 1000)) in N by ring. rewrite Qabs_opp, (Qabs_pos (d / 1000)) in N by lra.
    apply Qabs_Qle_condition in N. lra. }
  assert (V0 : d < 2 ^ (-1073) -> double (d / 1000) <= 0).
  { intros K. apply Qle_trans with (double (2 ^ (-1076))); [apply double_mono|vm_compute; discriminate].
    assert (2 ^ (-1073) == 8 * 2 ^ (-1076)) by (vm_compute; reflexivity). pose proof (two_pos (-1076)). lra. }
  set (v := double (d / 1000)) in *. clearbody v. pose proof (two_pos (-1074)) as P0.
  assert (2 ^ (-1074) <= double (d - v)); [|lra]. apply double_ge; [apply is_double_two; lia|].
  destruct (Qlt_le_dec d (2 ^ (-1073))) as [K|K]; [specialize (V0 K); lra|].
  assert (2 ^ (-1073) == 2 * 2 ^ (-1074)) by (vm_compute; reflexivity). lra.
Qed.

Lemma adjust_stuck di h p sd n : sd_smoothness sd = 2 -> (forall d, 400000000 <= double (h - di p d)) -> forall d ls, is_double d -> 0 < d -> torn wide_dmax ls ->
  r_adjust_d_loop double n di h wide_dmax p sd d ls = None.
Proof.
  intros Sm Far. induction n as [|n IH]; intros d ls D P T; [reflexivity|]. cbn [r_adjust_d_loop]. rewrite (valid_torn _ _ _ _ _ T).
  destruct (lowered_pos d D P) as (D' & P'). set (d' := double (d - double (d / 1000))) in *. rewrite Sm.
  destruct (r_find_ls double (S n) d' 2 wide_dmax (double (h - di p d'))) as [ls'|] eqn:E; [|reflexivity].
  apply IH; [exact D'|exact P'|]. eapply torn_find; [exact D'|exact P'|apply Far|exact E].
Qed.

Lemma solve_stuck n b a iv : p_policy b = ONELINE -> is_double (p_d b) -> 0 < p_d b -> sd_smoothness (iv_before iv) = 2 ->
  iv_dmax iv = wide_dmax -> 400000000 <= double (iv_h iv - 0) -> r_auto_solve_d double n b a iv = None.
Proof.
  intros Ob Db Pb Sb Dm Far. unfold r_auto_solve_d. rewrite Dm.
  assert (Fb : forall d, 400000000 <= double (iv_h iv - r_d_init_before double b d)) by (intros d; unfold r_d_init_before; rewrite Ob; exact Far).
  unfold r_update_ls at 1. rewrite Sb.
  destruct (r_find_ls double n (p_d b) 2 wide_dmax _) as [ls|] eqn:E; [|reflexivity]. apply torn_find in E; [|exact Db|exact Pb|apply Fb].
  destruct (r_update_ls double n (r_d_init_after double) _ _ a (iv_after iv)) as [after|]; [|reflexivity].
  unfold r_update_ls at 1. cbn [sd_smoothness sd_lmin].
  destruct (r_find_ls double n (p_d b) 2 wide_dmax _) as [ls'|] eqn:E'; [|reflexivity]. apply torn_find in E'; [|exact Db|exact Pb|apply Fb].
  destruct (r_update_ls double n (r_d_init_after double) _ _ a after) as [after'|]; [|reflexivity].
  unfold r_adjust_d at 1. cbn [sd_ls]. rewrite adjust_stuck; [reflexivity|reflexivity|exact Fb| | |exact E'].
  - apply qmin_double; [exact Db|exact wide_double].
  - apply qmin_pos; [exact Pb|reflexivity].
Qed.

Definition wide_params : params := mk_params 1 2 2 wide_dmax.
Definition wide_axis : axis := mk_axis [mk_mlp 0 ONELINE NNONE true 1000; mk_mlp 1000000000 ONELINE NNONE true 1000] [] [] [].

Lemma wide_loops : exists ax, r_detect_intervals double wide_params isort wide_axis = Done ax /\ loops (fun n => r_mesh_axis double n isort ax).
Proof.
  eexists. split; [vm_compute; reflexivity|]. intros n.
  unfold r_mesh_axis. change (visiting_order isort _) with [0%nat]. cbn [r_first_pass].
  unfold r_auto_solve_d_at, read. cbn [ax_segments ax_policies nth_error bind sg_before sg_after sg_iv].
  rewrite solve_stuck; [reflexivity|reflexivity| |reflexivity|reflexivity|reflexivity|vm_compute; discriminate].
  exists 1000%Z, 0%Z. split; [vm_compute; discriminate|]. split; [lia|reflexivity].
Qed.

(** ** Two lines at one place *)

Lemma full_size_loop n dmax s sm sm' : forall cd cs, dmax <= cd -> r_find_ls_loop double n sm dmax s cd cs = r_find_ls_loop double n sm' dmax s cd cs.
Proof.
  induction n as [|n IH]; intros cd cs L; [reflexivity|]. cbn [r_find_ls_loop].
  assert (N : forall x, r_next_space double x dmax cd = cd) by (intros x; unfold r_next_space; destruct (Qltb_spec cd dmax); [lra|reflexivity]).
  rewrite !N, (IH cd _ L). reflexivity.
Qed.
Lemma full_size n d dmax s sm sm' : dmax <= d -> r_find_ls double n d sm dmax s = r_find_ls double n d sm' dmax s.
Proof. intros L. apply full_size_loop. unfold qmin. destruct (Qltb dmax d); lra. Qed.

Lemma smoothness_kept n b a iv iv' lb la : iv_dmax iv <= p_d b -> iv_dmax iv <= p_d a ->
  r_find_ls double n (p_d b) 2 (iv_dmax iv) (double (iv_h iv - r_d_init_before double b (p_d b))) = Some lb ->
  r_find_ls double n (p_d a) 2 (iv_dmax iv) (double (iv_h iv - r_d_init_after double a (p_d a))) = Some la ->
  r_auto_solve_smoothness double n b a iv = Some iv' ->
  iv_m iv' = iv_m iv /\ sd_ls (iv_before iv') = lb /\ sd_ls (iv_after iv') = la.
Proof.
  intros Lb La Fb Fa E. unfold r_auto_solve_smoothness, r_update_ls in E.
  rewrite (full_size n (p_d b) _ _ _ 2 Lb), Fb, (full_size n (p_d a) _ _ _ 2 La), Fa in E.
  destruct (r_adjust_smoothness double n (r_d_init_before double) _ _ b _) as [sb|]; [|discriminate].
  destruct (r_adjust_smoothness double n (r_d_init_after double) _ _ a _) as [sa|]; [|discriminate].
  cbn [set_smoothness sd_lmin sd_smoothness] in E.
  rewrite (full_size n (p_d b) _ _ _ 2 Lb), Fb, (full_size n (p_d a) _ _ _ 2 La), Fa in E. injection E as <-. now repeat split.
Qed.

Lemma kept_lines {T} n b a iv lb la (K : axis -> list Q -> run T) r : iv_dmax iv <= p_d b -> iv_dmax iv <= p_d a ->
  r_find_ls double n (p_d b) 2 (iv_dmax iv) (double (iv_h iv - r_d_init_before double b (p_d b))) = Some lb ->
  r_find_ls double n (p_d a) 2 (iv_dmax iv) (double (iv_h iv - r_d_init_after double a (p_d a))) = Some la ->
  (let! ax := r_auto_solve_smoothness_at double n (mk_axis [b; a] [] [mk_segment 0 1 iv] []) 0 in
   let! lines := r_mesh_segment double ax 0 in K ax lines) = Done r ->
  exists iv', K (mk_axis [b; a] [] [mk_segment 0 1 iv'] [])
    (r_mesh_interval double b a (mk_interval (iv_h iv) (iv_m iv) (iv_dmax iv) (mk_side 0 0 lb) (mk_side 0 0 la))) = Done r.
Proof.
  intros Lb La Fb Fa E. unfold r_auto_solve_smoothness_at, read in E. cbn [ax_segments ax_policies nth_error bind sg_before sg_after sg_iv] in E.
  destruct (r_auto_solve_smoothness double n b a iv) as [iv'|] eqn:Es; [|discriminate].
  destruct (smoothness_kept _ _ _ _ _ lb la Lb La Fb Fa Es) as (Em & Eb & Ea).
  exists iv'. cbn in E. unfold r_mesh_interval in *. rewrite Em, Eb, Ea in E. exact E.
Qed.

Lemma bound {A B} (m : run A) (f : A -> run B) r : bind m f = Done r -> exists x, m = Done x /\ f x = Done r.
Proof. destruct m as [x| |]; cbn; intros E; [now exists x|discriminate..]. Qed.

Lemma kept_axis n ax0 ax1 b a iv lb la ax2 : visiting_order isort ax0 = [0%nat] -> r_first_pass double n ax0 [0%nat] = Done ax1 ->
  r_auto_solve_d_at double n ax1 0 = Done (mk_axis [b; a] [] [mk_segment 0 1 iv] []) -> iv_dmax iv <= p_d b -> iv_dmax iv <= p_d a ->
  r_find_ls double n (p_d b) 2 (iv_dmax iv) (double (iv_h iv - r_d_init_before double b (p_d b))) = Some lb ->
  r_find_ls double n (p_d a) 2 (iv_dmax iv) (double (iv_h iv - r_d_init_after double a (p_d a))) = Some la ->
  r_mesh_axis double n isort ax0 = Done ax2 ->
  ax_lines ax2 = isort Q (fun x => x) (r_mesh_interval double b a (mk_interval (iv_h iv) (iv_m iv) (iv_dmax iv) (mk_side 0 0 lb) (mk_side 0 0 la)) ++ flat_map mesh_policy [b; a]).
Proof.
  intros Vo E1 E2 Lb La Fb Fa E. unfold r_mesh_axis in E. rewrite Vo, E1 in E. cbn [bind r_second_pass] in E. rewrite E2 in E. cbn [bind] in E.
  apply bound in E. destruct E as ((ax, lines) & X & E). injection E as <-.
  apply (kept_lines _ _ _ _ lb la) in X; [|assumption..].
  destruct X as (iv' & X). injection X as <- <-. cbn [ax_lines set_lines ax_policies concat app]. rewrite app_nil_r. reflexivity.
Qed.

Definition fifth : Q := Eval vm_compute in Qred (double (1 # 5)).
Definition close_params : params := mk_params 1 2 2 (5 # 2).
Definition close_axis : axis := mk_axis [mk_mlp 0 ONELINE NNONE true (5 # 4); mk_mlp 4 ONELINE NNONE true (5 # 4)] [] [] [].
Definition close_zones : list zone := [mk_zone 0 4 fifth].
Definition get {A} (d : A) (m : run A) : A := match m with Done x => x | _ => d end.
Definition close_detected : axis := Eval vm_compute in apply_zones close_zones (get close_axis (r_detect_intervals double close_params isort close_axis)).
Definition close_solved : axis := Eval vm_compute in get close_axis (r_first_pass double 20 close_detected [0%nat]).
Definition close_again : axis := Eval vm_compute in get close_axis (r_auto_solve_d_at double 20 close_solved 0).
Definition close_b : mlp := Eval vm_compute in nth 0 (ax_policies close_again) (mk_mlp 0 ONELINE NNONE true 0).
Definition close_a : mlp := Eval vm_compute in nth 1 (ax_policies close_again) (mk_mlp 0 ONELINE NNONE true 0).
Definition close_iv : interval := Eval vm_compute in sg_iv (nth 0 (ax_segments close_again) (mk_segment 0 0 (mk_interval 0 0 0 (mk_side 0 0 []) (mk_side 0 0 [])))).
Definition close_half : list Q := Eval vm_compute in match r_find_ls double 20 (p_d close_b) 2 (iv_dmax close_iv) (double (iv_h close_iv - 0)) with Some l => l | None => [] end.

Lemma close_lines n ax2 : r_mesh_axis double (20 + n) isort close_detected = Done ax2 ->
  exists u x y z v, ax_lines ax2 = u ++ x :: y :: z :: v /\ 0 < y - x /\ y - x <= 2 ^ (-52) /\ y == z.
Proof.
  intros E. apply (kept_axis (20 + n) close_detected close_solved close_b close_a close_iv close_half close_half) in E;
    [|vm_compute; reflexivity|vm_compute; reflexivity|vm_compute; reflexivity|vm_compute; discriminate|vm_compute; discriminate|vm_compute; reflexivity|vm_compute; reflexivity].
  rewrite E.
  match goal with |- exists u x y z v, ?l = _ /\ _ => let l' := eval vm_compute in l in
    let u := eval vm_compute in (firstn 10 l') in let v := eval vm_compute in (skipn 13 l') in
    let x := eval vm_compute in (nth 10 l' 0) in let y := eval vm_compute in (nth 11 l' 0) in let z := eval vm_compute in (nth 12 l' 0) in
    exists u, x, y, z, v end.
  split; [vm_compute; reflexivity|]. split; [reflexivity|]. split; [vm_compute; discriminate|reflexivity].
Qed.

Lemma known_double m e x : (Z.abs m <= 2 ^ 53)%Z -> (-1074 <= e)%Z -> x == inject_Z m * 2 ^ e -> is_double x.
Proof. intros A B C. exists m, e. now split. Qed.

Lemma close_tame : tame 4 (1 # 256) (5 # 2) close_params close_zones close_axis.
Proof.
  assert (E : forall i p, enabled_at close_axis i p -> (i = 0%nat /\ p = mk_mlp 0 ONELINE NNONE true (5 # 4)) \/ (i = 1%nat /\ p = mk_mlp 4 ONELINE NNONE true (5 # 4))).
  { intros [|[|i]] p [P _]; unfold policy_at in P; cbn in P; [left|right|destruct i; discriminate]; injection P as <-; now split. }
  constructor.
  - vm_compute. discriminate.
  - vm_compute. discriminate.
  - discriminate.
  - discriminate.
  - split; [apply (known_double 5 (-1)); [lia|lia|reflexivity]|]. split; discriminate.
  - constructor; [|constructor]. split; [apply (known_double 3602879701896397 (-54)); [lia|lia|vm_compute; reflexivity]|]. split; vm_compute; discriminate.
  - split; discriminate.
  - intros i p P. destruct (E i p P) as [[-> ->]|[-> ->]]; cbn [p_coord p_d p_policy p_normal].
    + split; [apply is_double_0|]. split; [split; discriminate|]. split; [apply (known_double 5 (-2)); [lia|lia|reflexivity]|]. split; [discriminate|].
      split; [discriminate|]. cbn. congruence.
    + split; [apply (known_double 4 0); [lia|lia|reflexivity]|]. split; [split; discriminate|]. split; [apply (known_double 5 (-2)); [lia|lia|reflexivity]|]. split; [discriminate|].
      split; [discriminate|]. cbn. congruence.
  - intros i j p q N P Q. destruct (E i p P) as [[-> ->]|[-> ->]], (E j q Q) as [[-> ->]|[-> ->]]; try congruence; vm_compute; discriminate.
Qed.

Lemma close_refuted : exists M lo D g zs ax ax1 ax2, tame M lo D g zs ax /\ ax_segments ax = [] /\ ax_lines ax = [] /\
  r_detect_intervals double g isort ax = Done ax1 /\ finishes (fun n => r_mesh_axis double n isort (apply_zones zs ax1)) ax2 /\
  exists u x y z v, ax_lines ax2 = u ++ x :: y :: z :: v /\ 0 < y - x /\ y - x <= 2 ^ (-52) /\ y == z.
Proof.
  exists 4, (1 # 256), (5 # 2), close_params, close_zones, close_axis.
  destruct (tame_axis _ _ _ _ _ _ isort close_tame isort_sorts eq_refl eq_refl) as (ax1 & ax2 & E & F & _).
  exists ax1, ax2. split; [exact close_tame|]. split; [reflexivity|]. split; [reflexivity|]. split; [exact E|]. split; [exact F|].
  assert (Z : apply_zones close_zones ax1 = close_detected).
  { assert (ax1 = get close_axis (r_detect_intervals double close_params isort close_axis)) as -> by (rewrite E; reflexivity). vm_compute. reflexivity. }
  rewrite Z in F. destruct F as (n & F). apply (close_lines n). apply F. lia.
Qed.
