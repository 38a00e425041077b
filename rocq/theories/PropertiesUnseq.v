(** Property C90: the loops that are not sequenced. *)
From Coq Require Import List Arith Bool Permutation.
From Verif Require Import HistModel HistSpec HistTreeProofs HistProofs HistExamples UnseqModel UnseqSpec UnseqProofs PropertiesHist.
Import ListNotations.

Section Props.
Context {V A : Type}.
Implicit Types (w : world V A) (g : ghost V).

(** The collector does the same whatever the order of the parts of its unsequenced loop, and whenever
    the objects that die with the states erased are destroyed. *)
Theorem C90_collect w g dying l : reachable w g -> erasing_order (w_regs w) dying l -> collector_with l w = garbage_collector dying w.
Proof. intros R. exact (collected_any_order w g dying l (reachable_inv w g R)). Qed.

(** ... and in no order does it read what is not there. *)
Theorem C90_collect_safe w g dying l : reachable w g -> erasing_order (w_regs w) dying l -> exists w', collector_with l w = Ok w'.
Proof. intros R O. rewrite (C90_collect w g dying l R O). destruct (gc_ok w g (reachable_inv w g R) dying) as (w' & E & _). now exists w'. Qed.

(** A jump does the same whatever the order in which objects are asked for it. *)
Theorem C90_jump w g t l : reachable w g -> asking_order t (w_regs w) l -> go_with l t w = go_without_remembering t w.
Proof. exact (jumped_any_order w g t l). Qed.

(** The common ancestor is the same whatever the order of the comparisons, even if some are done
    twice. *)
Theorem C90_compare (h : heap) a b include_themselves order : (forall x y, In y (order x) <-> In y (ancestors h include_themselves b)) ->
  common_ancestor_with order h a include_themselves = common_ancestor h a b include_themselves.
Proof.
  intros O. unfold common_ancestor_with, common_ancestor. replace (find (fun x => existsb (Nat.eqb x) (order x)) (ancestors h include_themselves a)) with
    (find (fun x => mem x (ancestors h include_themselves b)) (ancestors h include_themselves a)); [reflexivity|].
  induction (ancestors h include_themselves a) as [|x l IH]; [reflexivity|]. cbn. rewrite IH, <- (mem_In_iff x (order x) (ancestors h include_themselves b)) by apply O. reflexivity.
Qed.

(** Every operation does the same whatever the orders in which its loops run ... *)
Theorem C90_step w g x r : reachable w g -> permitted w g x -> may_step w x r -> step w x = r.
Proof. exact (may_step_step w g x r). Qed.
(** ... so that no order leads to a world that the sequential one does not lead to: what C01-C11 say of
    sequential loops is true of any. *)
Theorem C90_history w g : reachable_unsequenced w g <-> reachable w g.
Proof. exact (reachable_same w g). Qed.
End Props.
Print Assumptions C90_step.
Print Assumptions C90_history.
Print Assumptions C90_collect.
Print Assumptions C90_collect_safe.
Print Assumptions C90_jump.
Print Assumptions C90_compare.

(** The history of [ex_browsing], then a new branch without the automatic collector: timepoint 3 is to
    be removed, and both objects have a jump to do. *)
Definition late_ops : list (op nat nat) := ex_browsing ++ [SetAutoGc false; NextTimepoint 4 []].
Example late_reachable : reachable (ex_world late_ops) (ex_ghost late_ops).
Proof. apply (play_ok 1 late_ops). vm_compute. reflexivity. Qed.

(** How many states each object keeps. *)
Definition kept (r : outcome (world nat nat)) : list nat := match r with Ok w => map (fun e => length (o_states (snd e))) (w_objs w) | _ => [] end.
(** The order within a call is needed: it is wrong that the parts of one call can be in any order.  If the states are erased before the
    jump, that of the timepoint which the object is about to leave stays. *)
Theorem C90_within_needed : ~ forall (w : world nat nat) g l, reachable w g -> Permutation l (concat (map erasing (w_regs w))) ->
  collector_with l w = garbage_collector [] w.
Proof.
  intros H. specialize (H _ _ [Drop_states 7; Jump 7; Drop_order 7; Jump 8; Drop_states 8; Drop_order 8] late_reachable).
  assert (P : Permutation [Drop_states 7; Jump 7; Drop_order 7; Jump 8; Drop_states 8; Drop_order 8] (concat (map erasing (w_regs (ex_world late_ops))))).
  { replace (concat (map erasing (w_regs (ex_world late_ops)))) with [Jump 7; Drop_states 7; Drop_order 7; Jump 8; Drop_states 8; Drop_order 8] by (vm_compute; reflexivity). apply perm_swap. }
  specialize (H P). apply (f_equal kept) in H. vm_compute in H. discriminate H.
Qed.
Print Assumptions C90_within_needed.

(** There the parts of the two calls are mixed, and object 8 is destroyed in between. *)
Definition mixed : list part := [Jump 8; Jump 7; Drop_states 7; Die 8; Drop_states 8; Drop_order 8; Drop_order 7].
Example C90_collect_example : erasing_order (w_regs (ex_world late_ops)) [8] mixed
  /\ In 3 (gc_remove (ex_world late_ops)) /\ exists w, collector_with mixed (ex_world late_ops) = Ok w /\ w_regs w = [7]
  /\ map (fun e => (fst e, o_order (snd e))) (w_objs (ex_world late_ops)) = [(7, [1; 2; 3]); (8, [3])] /\ map (fun e => (fst e, o_order (snd e))) (w_objs w) = [(7, [1; 2])].
Proof.
  split; [|split; [vm_compute; tauto|eexists; split; [vm_compute; reflexivity|repeat split]]].
  unfold erasing_order, mixed. replace (map erasing (w_regs (ex_world late_ops)) ++ map (fun o => [Die o]) [8]) with [erasing 7; erasing 8; [Die 8]] by (vm_compute; reflexivity).
  apply (interleaved_next [erasing 7]). cbn. apply (interleaved_next []). cbn. apply (interleaved_next []). cbn. apply (interleaved_next [_; _]). cbn.
  apply (interleaved_next [_]). cbn. apply (interleaved_next [_]). cbn. apply (interleaved_next []). cbn. constructor. repeat constructor.
Qed.
Example C90_jump_example : asking_order 2 (w_regs (ex_world ex_ops)) [Ask 8 2; Ask 7 2]
  /\ exists w, go_with [Ask 8 2; Ask 7 2] 2 (ex_world ex_ops) = Ok (w, true) /\ map (fun e => o_lazy (snd e)) (w_objs w) = [Some 2; Some 2].
Proof.
  split; [|eexists; split; [vm_compute; reflexivity|reflexivity]]. unfold asking_order. replace (map (asking 2) (w_regs (ex_world ex_ops))) with [asking 2 7; asking 2 8] by (vm_compute; reflexivity).
  apply (interleaved_next [_]). cbn. apply (interleaved_next []). cbn. constructor. repeat constructor.
Qed.
Example C90_compare_example : common_ancestor_with (fun _ => [1; 3; 2]) (w_heap (ex_world ex_ops)) 2 true = 2 /\ ancestors (w_heap (ex_world ex_ops)) true 3 = [3; 2; 1].
Proof. split; vm_compute; reflexivity. Qed.
Example C90_step_example : exists w, may_step (ex_world late_ops) (Collect [8]) (Ok w) /\ permitted (ex_world late_ops) (ex_ghost late_ops) (Collect [8]) /\ w_regs w = [7].
Proof.
  destruct (C03_no_dangling _ _ (Collect [8]) late_reachable I) as (w & E). exists w. split; [exact (step_may _ (ex_ghost late_ops) (Collect [8]) w late_reachable I E)|]. split; [exact I|]. vm_compute in E. injection E as <-. reflexivity.
Qed.
Example C90_history_example : reachable_unsequenced (ex_world late_ops) (ex_ghost late_ops).
Proof. apply C90_history, late_reachable. Qed.
