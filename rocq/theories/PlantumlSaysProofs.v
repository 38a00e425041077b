(** Proofs about the state diagram: what it says of each object. *)
From Coq Require Import String List Arith Bool QArith Lia Permutation.
From Verif Require Import IntervalModel ManagerModel ManagerSpec ManagerProofs ManagerSafetyProofs GeomModel BoardModel BoardSpec EditModel.
From Verif Require Import SceneModel SceneSpec SceneProofs SceneValidProofs SceneOnceProofs PlantumlModel PlantumlSpec PlantumlProofs PlantumlStateProofs PlantumlArrowProofs.
Import ListNotations.
Local Open Scope nat_scope.
Local Open Scope list_scope.

Section Says.
Context (named : nat -> string) (srt : sort_by) (b : board) (k : links) (Pm : permutes srt) (doc : list stmt) (H : plantuml named srt b k = Done doc).

(** What a statement is about. *)
Definition about (s : stmt) : option entity := match s with Open _ (Whole x) _ | Field x _ => Some x | _ => None end.

Lemma some_piece s x : In s doc -> about s = Some x -> exists y l, shown b y /\ thing_lines named b k y = Done l /\ In s l.
Proof.
  intros I A. apply (in_doc named srt b k doc H) in I. destruct I as [->|[->|[(p & l & L & I)|(a & l & L & I)]]]; try discriminate.
  - apply (in_plane named b _ _ L) in I. destruct I as [->|[->|[(i & y & J & Y & I)|(i & y & J & Y & I)]]]; try discriminate.
    + apply in_polygons_of in J. destruct J as (g & E & _). exists (EPolygon i), y. split; [|auto]. split; [now apply nth_lt in E|exact Logic.I].
    + apply below_seq in J. exists (EInPolygon p i), y. split; [|auto]. now split.
  - apply (in_axis srt b k _ _ L) in I. destruct I as [->|[->|[(i & y & J & Y & I)|[(i & y & J & Y & I)|[(i & y & J & Y & I)|[(i & y & J & Y & I)|(i & y & J & Y & I)]]]]]]; try discriminate.
    + apply (in_sorted srt b Pm) in J. exists (EPolicy a i), y. split; [|auto]. now split.
    + apply below_seq in J. exists (EInterval a i), y. split; [|auto]. now split.
    + apply below_seq in J. exists (ELine a i), y. split; [|auto]. now split.
    + apply below_seq in J. exists (EColinear a i), y. split; [|auto]. now split.
    + apply below_seq in J. exists (EClose a i), y. split; [|auto]. now split.
Qed.
Ltac here J := cbn [app In map] in J; repeat destruct J as [<-|J]; try contradiction; cbn [about] in *; try discriminate; try congruence.
(** ... which is in the piece of that. *)
Lemma own_piece s x : In s doc -> about s = Some x -> exists l, shown b x /\ thing_lines named b k x = Done l /\ In s l.
Proof.
  intros I A. destruct (some_piece s x I A) as (y & l & Sy & T & J).
  assert (G : x = y \/ exists i j, y = EPolygon i /\ x = EEdge j /\ shown b x /\ exists l', edge_lines b j = Done l' /\ In s l').
  { destruct y as [i|e|i|a i|q i|a i|a i|a i|a i|a i]; cbn [thing_lines] in T; try discriminate T.
    - unfold polygon_lines in T. apply bind_done in T. destruct T as (g & R & T). apply read_some in R. cbn zeta in T. apply bind_done in T. destruct T as (es & C & T). injection T as <-. cbn [app In] in J.
      destruct J as [<-|[<-|[<-|J]]]; cbn in A; try discriminate; try (left; congruence). apply in_app_or in J. destruct J as [J|[<-|[]]]; [|discriminate]. apply (in_collected _ _ _ _ C) in J. destruct J as (j & y & Ij & Y & J).
      right. exists i, j. split; [reflexivity|]. assert (x = EEdge j) by (apply bind_done in Y; destruct Y as (e & _ & Y); injection Y as <-; here J). split; [assumption|]. split; [|eauto]. subst x. split; [now exists i, g|exact Logic.I].
    - left. apply bind_done in T. destruct T as (e' & _ & T). injection T as <-. here J.
    - left. unfold colinear_lines in T. apply bind_done in T. destruct T as (c & R & T). cbn zeta in T. apply bind_done in T. destruct T as (cs & C & T). apply bind_done in T. destruct T as (so & So & T). injection T as <-.
      cbn [app In] in J. destruct J as [<-|[<-|[<-|J]]]; cbn in A; try discriminate; try congruence. rewrite !in_app_iff in J. destruct J as [J|[J|[<-|[]]]]; [| |discriminate].
      + apply (in_collected _ _ _ _ C) in J. destruct J as (j & y & _ & Y & J). apply bind_done in Y. destruct Y as (e & _ & Y). injection Y as <-. here J.
      + destruct (ce_policy c); [|injection So as <-; destruct J]. apply bind_done in So. destruct So as (p & _ & So). injection So as <-. here J.
    - left. unfold in_polygon_lines in T. apply bind_done in T. destruct T as (c & R & T). apply bind_done in T. destruct T as (e & Re & T). cbn zeta in T. injection T as <-. cbn [app In] in J.
      destruct J as [<-|[<-|[<-|[<-|J]]]]; cbn in A; try discriminate; try congruence. apply in_app_or in J. destruct J as [J|[<-|[]]]; [|discriminate]. apply in_flat_map in J. destruct J as (o & _ & J). cbn [app In] in J. destruct J as [<-|[<-|J]]; try discriminate.
      apply in_map_iff in J. destruct J as (j & <- & _). discriminate.
    - left. unfold close_lines in T. apply bind_done in T. destruct T as (c & R & T). cbn zeta in T. injection T as <-. cbn [app map In] in J. destruct J as [<-|[<-|[<-|[<-|[<-|J]]]]]; cbn in A; try discriminate; try congruence.
      apply in_app_or in J. destruct J as [J|[<-|[]]]; [|discriminate]. apply in_map_iff in J. destruct J as (j & <- & _). discriminate.
    - left. unfold policy_lines in T. apply bind_done in T. destruct T as (c & R & T). cbn zeta in T. injection T as <-. cbn [app In] in J. destruct J as [<-|[<-|[<-|[<-|[<-|[<-|[<-|J]]]]]]]; cbn in A; try discriminate; try congruence.
      apply in_app_or in J. destruct J as [J|[<-|[]]]; [|discriminate]. destruct (lk_origins k a i) as [|[] [|]]; try (destruct J as [<-|[]]; discriminate); destruct J.
    - left. unfold interval_lines in T. apply bind_done in T. destruct T as (c & R & T). cbn zeta in T. injection T as <-. here J.
    - left. unfold meshline_lines in T. apply bind_done in T. destruct T as (c & R & T). cbn zeta in T. injection T as <-. cbn [app In] in J. destruct J as [<-|[<-|J]]; cbn in A; try discriminate; try congruence.
      rewrite !in_app_iff, !in_map_iff in J. destruct J as [(j & <- & _)|[(j & <- & _)|[<-|[]]]]; discriminate. }
  destruct G as [->|(i & j & -> & -> & Sx & l' & Y & Jx)]; [now exists l|]. exists l'. auto.
Qed.
Lemma piece_own s x l : shown b x -> thing_lines named b k x = Done l -> In s l -> In s doc.
Proof. intros Sx T I. destruct (piece_in named srt b k Pm doc H x Sx) as (l' & T' & J). rewrite T in T'. injection T' as <-. now apply J. Qed.

Ltac all J := cbn [app In map] in J; repeat destruct J as [J|J]; try contradiction; try discriminate J.
Lemma field_says x t : In (Field x t) doc -> says b x t.
Proof.
  intros I. destruct (own_piece _ x I eq_refl) as (l & Sx & T & J). destruct x as [i|e|i|a i|q i|a i|a i|a i|a i|a i]; cbn [thing_lines] in T; try discriminate T.
  - unfold polygon_lines in T. apply bind_done in T. destruct T as (g & R & T). apply read_some in R. cbn zeta in T. apply bind_done in T. destruct T as (es & C & T). injection T as <-. cbn [app In] in J.
    destruct J as [J|[J|[J|J]]]; try discriminate J; [injection J as <-; now constructor|]. apply in_app_or in J. destruct J as [J|[J|[]]]; [|discriminate]. apply (in_collected _ _ _ _ C) in J. destruct J as (j & y & Ij & Y & J).
    apply bind_done in Y. destruct Y as (e & _ & Y). injection Y as <-. all J.
  - apply bind_done in T. destruct T as (e' & R & T). apply read_some in R. injection T as <-. destruct Sx as [Sx _]. all J; injection J as <-; [apply says_edge_normal|apply says_edge_mesh]; assumption.
  - unfold colinear_lines in T. apply bind_done in T. destruct T as (c & R & T). apply read_some in R. cbn zeta in T. apply bind_done in T. destruct T as (cs & C & T). apply bind_done in T. destruct T as (so & So & T). injection T as <-.
    cbn [app In] in J. destruct J as [J|[J|[J|J]]]; try discriminate. rewrite !in_app_iff in J. destruct J as [J|[J|[J|[]]]]; [| |discriminate].
    + apply (in_collected _ _ _ _ C) in J. destruct J as (j & y & Ij & Y & J). apply bind_done in Y. destruct Y as (e & Re & Y). apply read_some in Re. injection Y as <-. all J. injection J as <-. eapply says_colinear_edge; eassumption.
    + destruct (ce_policy c) as [j|] eqn:E; [|injection So as <-; destruct J]. apply bind_done in So. destruct So as (p & Rp & So). apply read_some in Rp. injection So as <-. all J; injection J as <-; [eapply says_colinear_policy|eapply says_colinear_normal]; eassumption.
  - exfalso. unfold in_polygon_lines in T. apply bind_done in T. destruct T as (c & R & T). apply bind_done in T. destruct T as (e & Re & T). cbn zeta in T. injection T as <-. cbn [app In] in J.
    destruct J as [J|[J|[J|[J|J]]]]; try discriminate. apply in_app_or in J. destruct J as [J|[J|[]]]; [|discriminate]. apply in_flat_map in J. destruct J as (o & _ & J). cbn [app In] in J. destruct J as [J|[J|J]]; try discriminate.
    apply in_map_iff in J. destruct J as (j & J & _). discriminate.
  - exfalso. unfold close_lines in T. apply bind_done in T. destruct T as (c & R & T). cbn zeta in T. injection T as <-. cbn [app map In] in J. destruct J as [J|[J|[J|[J|[J|J]]]]]; try discriminate.
    apply in_app_or in J. destruct J as [J|[J|[]]]; [|discriminate]. apply in_map_iff in J. destruct J as (j & J & _). discriminate.
  - unfold policy_lines in T. apply bind_done in T. destruct T as (c & R & T). apply read_some in R. cbn zeta in T. injection T as <-. cbn [app In] in J.
    destruct J as [J|[J|[J|[J|[J|[J|[J|J]]]]]]]; try discriminate J; try (injection J as <-; first [now apply says_policy_normal|now apply says_policy_enabled|now apply says_policy_policy|now apply says_policy_d]).
    apply in_app_or in J. destruct J as [J|[J|[]]]; [|discriminate]. destruct (lk_origins k a i) as [|[] [|]]; try (destruct J as [J|[]]; discriminate); destruct J.
  - unfold interval_lines in T. apply bind_done in T. destruct T as (c & R & T). apply read_some in R. cbn zeta in T. injection T as <-.
    all J; injection J as <-; [apply says_interval_dmax|apply says_before_lmin|apply says_before_smoothness|apply says_after_lmin|apply says_after_smoothness]; assumption.
  - unfold meshline_lines in T. apply bind_done in T. destruct T as (c & R & T). apply read_some in R. cbn zeta in T. injection T as <-. cbn [app In] in J. destruct J as [J|[J|J]]; try discriminate; [injection J as <-; now apply says_coord|].
    rewrite !in_app_iff, !in_map_iff in J. destruct J as [(j & J & _)|[(j & J & _)|[J|[]]]]; discriminate.
Qed.

Ltac piece x := let l := fresh "l" in let T := fresh "T" in let J := fresh "J" in
  destruct (piece_in named srt b k Pm doc H x) as (l & T & J);
  [split; [first [assumption|match goal with E : nth_error _ _ = Some _ |- _ => solve [exact (nth_lt _ _ _ E)] | E : policy_at _ _ _ |- _ => solve [exact (nth_lt _ _ _ E)] end]|exact Logic.I]|cbn [thing_lines] in T; apply J].
Lemma says_field x t : says b x t -> In (Field x t) doc.
Proof.
  intros Y. destruct Y as [i g E|i e O E|i e O E|a i c j e E Ij Ee|a i c j p E Ej Ep|a i c j p E Ej Ep|a i p E|a i p E|a i p E|a i p E|a i s E|a i s E|a i s E|a i s E|a i s E|a i x E].
  - piece (EPolygon i). unfold polygon_lines, read in T. rewrite E in T. cbn [bind] in T. cbn zeta in T. apply bind_done in T. destruct T as (es & _ & T). injection T as <-. cbn; tauto.
  - piece (EEdge i). unfold edge_lines, read in T. unfold edge_at in E. rewrite E in T. cbn [bind] in T. injection T as <-. cbn; tauto.
  - piece (EEdge i). unfold edge_lines, read in T. unfold edge_at in E. rewrite E in T. cbn [bind] in T. injection T as <-. cbn; tauto.
  - piece (EColinear a i). unfold colinear_lines, read at 1 in T. rewrite E in T. cbn [bind] in T. cbn zeta in T. apply bind_done in T. destruct T as (cs & C & T). apply bind_done in T. destruct T as (so & _ & T). injection T as <-.
    do 3 right. apply in_or_app. left. apply (in_collected _ _ _ _ C). unfold edge_at in Ee. exists j. eexists. split; [exact Ij|]. unfold read. rewrite Ee. split; [reflexivity|now left].
  - piece (EColinear a i). unfold colinear_lines, read at 1 in T. rewrite E in T. cbn [bind] in T. cbn zeta in T. apply bind_done in T. destruct T as (cs & C & T). apply bind_done in T. destruct T as (so & So & T). injection T as <-.
    rewrite Ej in So. unfold read in So. unfold policy_at in Ep. rewrite Ep in So. injection So as <-. do 3 right. apply in_or_app. right. cbn; tauto.
  - piece (EColinear a i). unfold colinear_lines, read at 1 in T. rewrite E in T. cbn [bind] in T. cbn zeta in T. apply bind_done in T. destruct T as (cs & C & T). apply bind_done in T. destruct T as (so & So & T). injection T as <-.
    rewrite Ej in So. unfold read in So. unfold policy_at in Ep. rewrite Ep in So. injection So as <-. do 3 right. apply in_or_app. right. cbn; tauto.
  - piece (EPolicy a i). unfold policy_lines, read in T. unfold policy_at in E. rewrite E in T. cbn [bind] in T. cbn zeta in T. injection T as <-. cbn; tauto.
  - piece (EPolicy a i). unfold policy_lines, read in T. unfold policy_at in E. rewrite E in T. cbn [bind] in T. cbn zeta in T. injection T as <-. cbn; tauto.
  - piece (EPolicy a i). unfold policy_lines, read in T. unfold policy_at in E. rewrite E in T. cbn [bind] in T. cbn zeta in T. injection T as <-. cbn; tauto.
  - piece (EPolicy a i). unfold policy_lines, read in T. unfold policy_at in E. rewrite E in T. cbn [bind] in T. cbn zeta in T. injection T as <-. cbn; tauto.
  - piece (EInterval a i). unfold interval_lines, read in T. rewrite E in T. cbn [bind] in T. cbn zeta in T. injection T as <-. cbn; tauto.
  - piece (EInterval a i). unfold interval_lines, read in T. rewrite E in T. cbn [bind] in T. cbn zeta in T. injection T as <-. cbn; tauto.
  - piece (EInterval a i). unfold interval_lines, read in T. rewrite E in T. cbn [bind] in T. cbn zeta in T. injection T as <-. cbn; tauto.
  - piece (EInterval a i). unfold interval_lines, read in T. rewrite E in T. cbn [bind] in T. cbn zeta in T. injection T as <-. cbn; tauto.
  - piece (EInterval a i). unfold interval_lines, read in T. rewrite E in T. cbn [bind] in T. cbn zeta in T. injection T as <-. cbn; tauto.
  - piece (ELine a i). unfold meshline_lines, read in T. rewrite E in T. cbn [bind] in T. cbn zeta in T. injection T as <-. cbn; tauto.
Qed.

Lemma open_titled x label colour : In (Open label (Whole x) colour) doc -> label = titled named x /\ coloured b x colour.
Proof.
  intros I. destruct (own_piece _ x I eq_refl) as (l & Sx & T & J). destruct x as [i|e|i|a i|q i|a i|a i|a i|a i|a i]; cbn [thing_lines] in T; try discriminate T.
  - unfold polygon_lines in T. apply bind_done in T. destruct T as (g & R & T). apply read_some in R. cbn zeta in T. apply bind_done in T. destruct T as (es & C & T). injection T as <-. cbn [app In] in J.
    destruct J as [J|[J|[J|J]]]; try discriminate J; [injection J as <- <-; split; [reflexivity|now apply plain]|]. apply in_app_or in J. destruct J as [J|[J|[]]]; [|discriminate]. apply (in_collected _ _ _ _ C) in J. destruct J as (j & y & Ij & Y & J).
    apply bind_done in Y. destruct Y as (e & _ & Y). injection Y as <-. all J.
  - apply bind_done in T. destruct T as (e' & R & T). apply read_some in R. injection T as <-. all J; injection J as <- <-. split; [reflexivity|]. destruct (e_to_mesh e') eqn:M; [|eapply edge_off; eassumption].
    destruct (e_conflicts e') eqn:N; [eapply edge_alone; eassumption|eapply edge_on; [eassumption..|rewrite N; discriminate]].
  - unfold colinear_lines in T. apply bind_done in T. destruct T as (c & R & T). apply read_some in R. cbn zeta in T. apply bind_done in T. destruct T as (cs & C & T). apply bind_done in T. destruct T as (so & So & T). injection T as <-.
    cbn [app In] in J. destruct J as [J|[J|[J|J]]]; try discriminate; [injection J as <- <-; split; [reflexivity|now apply plain]|]. rewrite !in_app_iff in J. destruct J as [J|[J|[J|[]]]]; [| |discriminate].
    + apply (in_collected _ _ _ _ C) in J. destruct J as (j & y & Ij & Y & J). apply bind_done in Y. destruct Y as (e & Re & Y). injection Y as <-. all J.
    + destruct (ce_policy c) as [j|] eqn:E; [|injection So as <-; destruct J]. apply bind_done in So. destruct So as (p & Rp & So). injection So as <-. all J.
  - unfold in_polygon_lines in T. apply bind_done in T. destruct T as (c & R & T). apply read_some in R. apply bind_done in T. destruct T as (e & Re & T). apply read_some in Re. cbn zeta in T. injection T as <-. cbn [app In] in J.
    destruct J as [J|[J|[J|[J|J]]]]; try discriminate.
    + injection J as <- <-. split; [reflexivity|]. destruct (e_to_mesh e) eqn:M; [eapply in_polygon_on; eassumption|eapply in_polygon_off; eassumption].
    + apply in_app_or in J. destruct J as [J|[J|[]]]; [|discriminate]. apply in_flat_map in J. destruct J as (o & _ & J). cbn [app In] in J. destruct J as [J|[J|J]]; try discriminate. apply in_map_iff in J. destruct J as (j & J & _). discriminate.
  - unfold close_lines in T. apply bind_done in T. destruct T as (c & R & T). cbn zeta in T. injection T as <-. cbn [app map In] in J. destruct J as [J|[J|[J|[J|[J|J]]]]]; try discriminate; [injection J as <- <-; split; [reflexivity|now apply plain]|].
    apply in_app_or in J. destruct J as [J|[J|[]]]; [|discriminate]. apply in_map_iff in J. destruct J as (j & J & _). discriminate.
  - unfold policy_lines in T. apply bind_done in T. destruct T as (c & R & T). apply read_some in R. cbn zeta in T. injection T as <-. cbn [app In] in J.
    destruct J as [J|[J|[J|[J|[J|[J|[J|J]]]]]]]; try discriminate J.
    + injection J as <- <-. split; [reflexivity|]. destruct (p_enabled c) eqn:M; [eapply policy_on; eassumption|eapply policy_off; eassumption].
    + apply in_app_or in J. destruct J as [J|[J|[]]]; [|discriminate]. destruct (lk_origins k a i) as [|[] [|]]; try (destruct J as [J|[]]; discriminate); destruct J.
  - unfold interval_lines in T. apply bind_done in T. destruct T as (c & R & T). cbn zeta in T. injection T as <-. all J; injection J as <- <-; (split; [reflexivity|now apply plain]).
  - unfold meshline_lines in T. apply bind_done in T. destruct T as (c & R & T). cbn zeta in T. injection T as <-. cbn [app In] in J. destruct J as [J|[J|J]]; try discriminate; [injection J as <- <-; split; [reflexivity|now apply plain]|].
    rewrite !in_app_iff, !in_map_iff in J. destruct J as [(j & J & _)|[(j & J & _)|[J|[]]]]; discriminate.
Qed.
End Says.
