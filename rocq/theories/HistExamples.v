(** A checker producing reachable worlds, used to build concrete examples. *)
From Coq Require Import List Arith Bool Lia.
From Verif Require Import HistModel HistSpec HistTreeProofs HistProofs.
Import ListNotations.

Section WithStates.
Context {V A : Type}.
Notation world := (world V A).
Notation ghost := (ghost V).

Definition is_some {X} (o : option X) : bool := match o with Some _ => true | None => false end.

Definition trackedb (w : world) (o : nat) : bool := mem o (w_regs w) && is_some (assoc o (w_objs w)).
Definition on_branchb (w : world) (t : nat) : bool := mem t (ancestors_self (w_heap w) (w_cur w)).

Definition permittedb (w : world) (g : ghost) (x : op V A) : bool :=
  match x with
  | NextTimepoint a dying =>
      negb (a =? null) &&
      match stop_browsing_user_history dying w with Ok w1 => negb (alive (w_heap w1) a) | _ => false end
  | Create o _ _ _ => negb (is_some (g_made g o))
  | TakeCareOf o =>
      negb (is_some (g_first g o)) && is_some (assoc o (w_objs w)) &&
      match g_made g o with Some (t, _) => on_branchb w t | None => true end
  | SetState o t _ =>
      trackedb w o && on_branchb w t &&
      negb (existsb (fun e => (fst e =? o) && (snd e =? g_ser g t)) (g_wrote g))
  | Read o => trackedb w o
  | GoWithoutRemembering t | GoAndRemember t => (t =? null) || alive (w_heap w) t
  | _ => true
  end.

Definition birthsb (w : world) (g : ghost) : bool :=
  forallb (fun o => negb (is_some (assoc o (w_objs w))) ||
                    existsb (fun e => g_ser g (fst e) =? g_born g o) (w_heap w)) (w_regs w).

Fixpoint check (w : world) (g : ghost) (ops : list (op V A)) : option (world * ghost) :=
  match ops with
  | [] => Some (w, g)
  | x :: r =>
      if permittedb w g x then
        match step w x with
        | Ok w' => if birthsb w' (gstep g w x) then check w' (gstep g w x) r else None
        | _ => None
        end
      else None
  end.

Definition play (r : nat) (ops : list (op V A)) : option (world * ghost) :=
  if r =? null then None else check (init_world r) ghost0 ops.

Lemma is_some_iff {X} (o : option X) : is_some o = true <-> o <> None.
Proof. destruct o; cbn; split; congruence. Qed.

Lemma trackedb_ok w o : trackedb w o = true -> tracked w o.
Proof. unfold trackedb. rewrite andb_true_iff, mem_In, is_some_iff. auto. Qed.

Lemma permittedb_ok w g x : reachable w g -> permittedb w g x = true -> permitted w g x.
Proof.
  intros R. pose proof (reachable_inv w g R) as I.
  assert (OB : forall t, on_branchb w t = true -> on_branch w t).
  { intros t H. apply reaches_anc; [apply I | now apply mem_In]. }
  destruct x; cbn; auto; rewrite ?andb_true_iff, ?negb_true_iff, ?orb_true_iff, ?Nat.eqb_neq, ?Nat.eqb_eq; auto.
  - intros [H1 H2]. split; [assumption|]. intros w1 E. rewrite E in H2. now apply negb_true_iff.
  - destruct (g_made g o); [discriminate | reflexivity].
  - intros [[H1 H2] H3]. repeat split.
    + destruct (g_first g o); [discriminate | reflexivity].
    + now apply is_some_iff.
    + intros t v E. rewrite E in H3. auto.
  - intros [[H1 H2] H3]. split; [now apply trackedb_ok|]. split; [auto|].
    intros Hin. apply not_true_iff_false in H3. apply H3. apply existsb_exists.
    eexists. split; [exact Hin|]. cbn. now rewrite !Nat.eqb_refl.
  - apply trackedb_ok.
Qed.

Lemma birthsb_ok w g : birthsb w g = true -> births_alive w g.
Proof.
  unfold birthsb. rewrite forallb_forall. intros H o [Hr Hx]. specialize (H o Hr).
  apply orb_true_iff in H as [H|H].
  - apply is_some_iff in Hx. now rewrite Hx in H.
  - apply existsb_exists in H as ([t p] & Hin & E). exists t. split; [eapply heap_In_alive; eauto|].
    now apply Nat.eqb_eq in E.
Qed.

Lemma check_ok w g ops w' g' : reachable w g -> check w g ops = Some (w', g') -> reachable w' g'.
Proof.
  revert w g. induction ops as [|x ops IH]; intros w g R; cbn.
  - intros [= <- <-]. assumption.
  - destruct (permittedb w g x) eqn:P; [|discriminate].
    destruct (step w x) as [w1| |] eqn:E; try discriminate.
    destruct (birthsb w1 (gstep g w x)) eqn:B; [|discriminate].
    apply IH. eapply reach_step; eauto; [now apply permittedb_ok | now apply birthsb_ok].
Qed.

Lemma play_ok r ops w g : play r ops = Some (w, g) -> reachable w g.
Proof.
  unfold play. destruct (Nat.eqb_spec r null); [discriminate|]. apply check_ok. now constructor.
Qed.

End WithStates.
