(** A checker producing sessions, used to build concrete examples. *)
From Coq Require Import List Arith Bool Lia.
From Verif Require Import HistModel HistSpec HistTreeProofs HistProofs HistNavProofs HistExamples AppModel GuiModel GuiSpec GuiHistProofs GuiProofs.
Import ListNotations.

Section WithStates.
Context {V : Type}.
Notation world := (world V Step).
Notation op := (op V Step).
Notation ghost := (ghost V).
Notation window := (window V).
Notation action := (action V).

Definition root_objectb (w : world) (o : oid) : bool :=
  mem o (w_regs w) && match assoc o (w_objs w) with Some x => o_init x =? w_root w | None => false end.

Definition disciplinedb (w : world) (new : list tp) (x : op) : bool :=
  match x with
  | TakeCareOf o => match assoc o (w_objs w) with Some y => mem (o_init y) new | None => false end
  | SetState _ t _ => mem t new
  | Unpin _ _ | Collect _ | SetAutoGc _ | Reset _ => false
  | _ => true
  end.

Fixpoint obeysb (w : world) (g : ghost) (new : list tp) (xs : list op) : bool :=
  match xs with
  | [] => true
  | x :: r =>
      permittedb w g x && disciplinedb w new x &&
      match step w x with
      | Ok w' =>
          birthsb w' (gstep g w x) &&
          forallb (fun o => negb (root_objectb w o) || is_some (assoc o (w_objs w'))) (w_regs w) &&
          obeysb w' (gstep g w x) (new_after new x) r
      | _ => false
      end
  end.

Lemma root_objectb_ok w o : root_objectb w o = true <-> root_object w o.
Proof.
  unfold root_objectb, root_object. rewrite andb_true_iff, mem_In. split.
  - intros [Hr H]. split; [assumption|]. destruct (assoc o (w_objs w)) as [x|]; [|discriminate]. exists x.
    split; [reflexivity | now apply Nat.eqb_eq].
  - intros (Hr & x & -> & E). split; [assumption | now apply Nat.eqb_eq].
Qed.

Lemma obeysb_ok xs : forall w g new, reachable w g -> obeysb w g new xs = true -> obeys w g new xs.
Proof.
  induction xs as [|x xs IH]; intros w g new R; cbn [obeysb obeys]; [auto|].
  rewrite !andb_true_iff. intros [[P D] H]. pose proof (permittedb_ok w g x R P) as P'. split; [assumption|]. split.
  - destruct x; cbn in *; try discriminate; auto.
    + intros y E. rewrite E in D. now apply mem_In.
    + now apply mem_In.
  - intros w' E. rewrite E in H. rewrite !andb_true_iff in H. destruct H as [[B L] H]. pose proof (birthsb_ok _ _ B) as B'.
    split; [assumption|]. split.
    + intros o Ho. rewrite forallb_forall in L. specialize (L o (proj1 Ho)).
      apply (root_objectb_ok w o) in Ho. rewrite Ho in L. cbn in L. now apply is_some_iff.
    + apply IH; [|assumption]. eapply reach_step; eauto.
Qed.

Definition parses_wellb (w0 : world) (parse : parsing) : bool :=
  match perform (fst (parse w0)) w0, snd (parse w0) with
  | Ok w1, Some (l, p) => root_objectb w1 l && root_objectb w1 p
  | _, _ => true
  end.

Lemma parses_wellb_ok w0 parse : parses_wellb w0 parse = true -> parses_well w0 parse.
Proof.
  intros H w1 l p E1 E2. unfold parses_wellb in H. rewrite E1, E2 in H. apply andb_true_iff in H as [H1 H2].
  split; now apply root_objectb_ok.
Qed.

Definition carefulb (wn : window) (g : ghost) (a : action) : bool :=
  obeysb (fst (start wn a)) g (snd (start wn a)) (action_ops wn a) &&
  match a with
  | OpenFile (Some p) parse _ => negb (p =? 0) && parses_wellb (reset_history (wn_world wn)) parse
  | _ => true
  end.

(** A window and its ghost, from a launch then actions. *)
Definition launched (r : tp) (args : app_params) (files : list (path * content V)) (parse : parsing) (board : @behaviour V)
  : option (window * ghost) :=
  if negb (r =? null) && obeysb (init_world r) ghost0 [r] (parse_ops parse board [] (init_world r)) &&
     parses_wellb (init_world r) parse
  then match launch r args files parse board with
       | Ok wn => Some (wn, if p_input args =? 0 then ghost0
                            else gperform ghost0 (init_world r) (parse_ops parse board [] (init_world r)))
       | _ => None
       end
  else None.

(** [can] decides the predicate of [session_where]. *)
Fixpoint act_all (can : action -> bool) (xs : list action) (wn : window) (g : ghost) : option (window * ghost) :=
  match xs with
  | [] => Some (wn, g)
  | a :: r =>
      if negb (wn_closed wn) && carefulb wn g a && can a then
        match act a wn with
        | Ok wn' => act_all can r wn' (gperform g (fst (start wn a)) (action_ops wn a))
        | _ => None
        end
      else None
  end.

Lemma launched_ok (P : action -> Prop) r args files parse board wn g : launched r args files parse board = Some (wn, g) -> session_where P wn g.
Proof.
  unfold launched. destruct (_ && _) eqn:C; [|discriminate]. rewrite !andb_true_iff in C. destruct C as [[Nr O] W].
  apply negb_true_iff, Nat.eqb_neq in Nr. destruct (launch _ _ _ _ _) as [wn'| |] eqn:E; try discriminate. intros [= <- <-].
  eapply session_launched; eauto.
  - apply obeysb_ok; [now apply reach_init | assumption].
  - now apply parses_wellb_ok.
Qed.

Lemma obeys_start (wn : window) g a : winv wn g -> wn_closed wn = false -> reachable (fst (start wn a)) g.
Proof.
  intros W Cl.
  assert (R : reachable (wn_world wn) g /\ NoDup (map fst (w_objs (wn_world wn)))).
  { destruct W as [(Op & _)|[_ W]]; [split; apply Op | split; apply (W Cl)]. }
  destruct R as [R N]. unfold start. destruct a; try exact R. destruct choice as [p|]; [|exact R].
  destruct (_ || _); [exact R|]. unfold reset_history. destruct (reset_good _ g R N) as (w0 & -> & G & _). apply G.
Qed.

Lemma act_all_ok (P : action -> Prop) can xs : (forall a, can a = true -> P a) -> forall wn g wn' g', session_where P wn g ->
  act_all can xs wn g = Some (wn', g') -> session_where P wn' g'.
Proof.
  intros HP. induction xs as [|a xs IH]; intros wn g wn' g' H; cbn [act_all].
  - intros [= <- <-]. assumption.
  - destruct (_ && _) eqn:C; [|discriminate]. rewrite !andb_true_iff in C. destruct C as [[Cl C] K].
    apply negb_true_iff in Cl. destruct (act a wn) as [wn1| |] eqn:E; try discriminate. apply IH.
    apply (session_acted P wn g a wn1); auto. unfold carefulb in C. apply andb_true_iff in C as [C1 C2]. split.
    + apply obeysb_ok; [|assumption]. exact (obeys_start wn g a (session_inv P wn g H) Cl).
    + destruct a; auto. destruct choice; auto. apply andb_true_iff in C2 as [C2 C3].
      split; [now apply Nat.eqb_neq, negb_true_iff | now apply parses_wellb_ok].
Qed.
End WithStates.
