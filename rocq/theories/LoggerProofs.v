(** Proofs about the logger. *)
From Coq Require Import List Bool Arith String Lia Sorted.
From Verif Require Import LoggerModel LoggerSpec.
Import ListNotations.
Local Open Scope nat_scope.
Local Open Scope list_scope.

(** * Maps *)
Definition ordered (l : list (nat * sink)) : Prop := StronglySorted lt (map fst l).

Lemma emplace_keys i s l j : In j (map fst (emplace i s l)) <-> j = i \/ In j (map fst l).
Proof.
  induction l as [|[k t] l IH]; cbn [emplace]; [cbn; intuition|].
  destruct (Nat.eqb_spec i k) as [->|N]; [cbn; intuition|]. destruct (i <? k); cbn; [intuition|]. rewrite IH. intuition.
Qed.

Lemma emplace_ordered i s l : ordered l -> ordered (emplace i s l).
Proof.
  unfold ordered. induction l as [|[k t] l IH]; cbn [emplace]; intros O; [repeat constructor|].
  destruct (Nat.eqb_spec i k) as [->|N]; [assumption|]. destruct (Nat.ltb_spec i k) as [L|L].
  - cbn. constructor; [assumption|]. inversion O as [|? ? O' F]; subst. constructor; [assumption|].
    rewrite Forall_forall in *. intros x X. apply F in X. cbn in *. lia.
  - cbn in *. inversion O as [|? ? O' F]; subst. constructor; [now apply IH|]. rewrite Forall_forall in *.
    intros x X. apply emplace_keys in X. destruct X as [->|X]; [lia|now apply F].
Qed.

Lemma find_emplace i s l j : ordered l ->
  find j (emplace i s l) = match find j l with Some t => Some t | None => if j =? i then Some s else None end.
Proof.
  unfold ordered. revert j; induction l as [|[k t] l IH]; cbn [emplace find]; intros j O; [reflexivity|].
  inversion O as [|? ? O' F]; subst.
  destruct (Nat.eqb_spec i k) as [->|N].
  - cbn. destruct (Nat.eqb_spec j k) as [->|M]; [reflexivity|]. now destruct (find j l).
  - destruct (Nat.ltb_spec i k) as [L|L]; cbn [find].
    + destruct (Nat.eqb_spec j i) as [->|M].
      * destruct (Nat.eqb_spec i k); [lia|]. enough (find i l = None) as -> by reflexivity.
        clear -F L. induction l as [|[x y] l IH]; [reflexivity|]. cbn in *. inversion F as [|? ? F1 F2]; subst.
        destruct (Nat.eqb_spec i x) as [->|]; [cbn in F1; lia|now apply IH].
      * destruct (j =? k); [reflexivity|]. now destruct (find j l).
    + destruct (j =? k); [reflexivity|]. now apply IH.
Qed.

Lemma find_in i l s : find i l = Some s -> In (i, s) l.
Proof.
  induction l as [|[k t] l IH]; cbn; [discriminate|]. destruct (Nat.eqb_spec i k) as [->|]; [intros [= ->]; now left|auto].
Qed.

Lemma in_find i l s : ordered l -> In (i, s) l -> find i l = Some s.
Proof.
  unfold ordered. induction l as [|[k t] l IH]; cbn; [easy|]. intros O. inversion O as [|? ? O' F]; subst.
  intros [[= -> ->]|I]; [now rewrite Nat.eqb_refl|].
  destruct (Nat.eqb_spec i k) as [->|]; [|now apply IH]. rewrite Forall_forall in F.
  apply (in_map fst) in I. apply F in I. cbn in I. lia.
Qed.

Lemma map_keys (f : nat * sink -> sink) l : map fst (map (fun p => (fst p, f p)) l) = map fst l.
Proof. rewrite map_map. reflexivity. Qed.

Lemma find_map (f : nat * sink -> sink) i l :
  find i (map (fun p => (fst p, f p)) l) = option_map (fun s => f (i, s)) (find i l).
Proof.
  induction l as [|[k t] l IH]; cbn; [reflexivity|]. now destruct (Nat.eqb_spec i k) as [->|].
Qed.

(** * The set up *)
Lemma first_kind_app i l l' :
  first_kind i (l ++ l') = match first_kind i l with Some k => Some k | None => first_kind i l' end.
Proof. induction l as [|[j k b|j] l IH]; cbn; [reflexivity| |assumption]. now destruct (i =? j). Qed.

Record good (l : list call) (g : logger) : Prop := mkGood {
  good_ordered : ordered (sinks g);
  good_kind : forall i, option_map sk_kind (find i (sinks g)) = first_kind i l;
  good_chosen : interactive_sink g = chosen (rev l);
  good_inter : forall i s, find i (sinks g) = Some s -> (is_interactive s = true <-> interactive_sink g = Some i);
  good_there : forall i, interactive_sink g = Some i -> find i (sinks g) <> None
}.

Lemma set_ordered i g : ordered (sinks g) -> ordered (sinks (set_as_the_interactive i g)).
Proof.
  unfold set_as_the_interactive, ordered. intros O. destruct (i =? 0); [cbn; now rewrite map_keys|].
  destruct (find i (sinks g)); [cbn; now rewrite map_keys|assumption].
Qed.

Lemma set_kind i g j : option_map sk_kind (find j (sinks (set_as_the_interactive i g))) = option_map sk_kind (find j (sinks g)).
Proof.
  unfold set_as_the_interactive. destruct (i =? 0); [|destruct (find i (sinks g))]; cbn; try rewrite find_map;
    destruct (find j (sinks g)); reflexivity.
Qed.

Lemma set_inter i g :
  (forall j s, find j (sinks g) = Some s -> (is_interactive s = true <-> interactive_sink g = Some j)) ->
  forall j s, find j (sinks (set_as_the_interactive i g)) = Some s ->
    (is_interactive s = true <-> interactive_sink (set_as_the_interactive i g) = Some j).
Proof.
  intros G j s. unfold set_as_the_interactive. destruct (i =? 0).
  - cbn. rewrite find_map. destruct (find j (sinks g)); [|discriminate]. intros [= <-]. cbn. easy.
  - destruct (find i (sinks g)) eqn:Fi; [|apply G]. cbn. rewrite find_map. destruct (find j (sinks g)); [|discriminate].
    intros [= <-]. cbn. rewrite Nat.eqb_eq. split; [now intros ->|now intros [= ->]].
Qed.

Lemma set_chosen i g :
  interactive_sink (set_as_the_interactive i g)
  = if i =? 0 then None else match find i (sinks g) with Some _ => Some i | None => interactive_sink g end.
Proof. unfold set_as_the_interactive. destruct (i =? 0); [reflexivity|]. now destruct (find i (sinks g)). Qed.

Lemma set_there i g :
  (forall j, interactive_sink g = Some j -> find j (sinks g) <> None) ->
  forall j, interactive_sink (set_as_the_interactive i g) = Some j -> find j (sinks (set_as_the_interactive i g)) <> None.
Proof.
  intros T j. pose proof (set_kind i g j) as K. rewrite set_chosen. intros E N. rewrite N in K. cbn in K.
  destruct (i =? 0); [discriminate|]. destruct (find i (sinks g)) eqn:Fi.
  - injection E as <-. now rewrite Fi in K.
  - specialize (T j E). now destruct (find j (sinks g)).
Qed.

Lemma do_call_good l g c : good l g -> good (l ++ [c]) (do_call g c).
Proof.
  intros [O K C I T]. destruct c as [i k b|i]; cbn [do_call].
  - unfold register_sink. set (g' := mkLogger (interactive_sink g) (emplace i (mkSink k false) (sinks g))).
    assert (O' : ordered (sinks g')) by now apply emplace_ordered.
    assert (K' : forall j, option_map sk_kind (find j (sinks g')) = first_kind j (l ++ [Register i k b])).
    { intros j. unfold g'. cbn [sinks]. rewrite (find_emplace _ _ _ _ O), first_kind_app, <- K.
      destruct (find j (sinks g)); [reflexivity|]. cbn. now destruct (j =? i). }
    assert (T' : forall j, interactive_sink g' = Some j -> find j (sinks g') <> None).
    { intros j E. cbn in *. rewrite (find_emplace _ _ _ _ O). specialize (T j E). now destruct (find j (sinks g)). }
    assert (I' : forall j s, find j (sinks g') = Some s -> (is_interactive s = true <-> interactive_sink g' = Some j)).
    { intros j s. cbn. rewrite (find_emplace _ _ _ _ O). destruct (find j (sinks g)) eqn:Fj; [intros [= <-]; now apply I|].
      destruct (j =? i); [|discriminate]. intros [= <-]. cbn. split; [discriminate|]. intros E. now apply T in E. }
    destruct b.
    + split.
      * now apply set_ordered.
      * intros j. rewrite set_kind. apply K'.
      * rewrite set_chosen, rev_app_distr. cbn [rev app chosen]. destruct (i =? 0); [reflexivity|].
        cbn. rewrite (find_emplace _ _ _ _ O). rewrite Nat.eqb_refl. now destruct (find i (sinks g)).
      * now apply set_inter.
      * now apply set_there.
    + split; [assumption|assumption| |assumption|assumption]. rewrite rev_app_distr. cbn. assumption.
  - split.
    + now apply set_ordered.
    + intros j. rewrite set_kind, K, first_kind_app. now destruct (first_kind j l).
    + rewrite set_chosen, rev_app_distr. cbn [rev app chosen]. rewrite rev_involutive. destruct (i =? 0); [reflexivity|].
      rewrite <- K, <- C. now destruct (find i (sinks g)).
    + now apply set_inter.
    + now apply set_there.
Qed.

Lemma after_good l : good l (after l).
Proof.
  unfold after. rewrite <- (app_nil_l l) at 1.
  assert (B : good [] new_logger) by (split; try reflexivity; [constructor|discriminate..]).
  revert B. generalize new_logger as g. generalize (@nil call) as p. induction l as [|c l IH]; intros p g B.
  - now rewrite app_nil_r.
  - cbn. replace (p ++ c :: l) with ((p ++ [c]) ++ l) by now rewrite <- app_assoc. apply IH. now apply do_call_good.
Qed.

(** * Giving messages *)
Section Log.
Variables (fuel : nat) (click : list button -> button).

Lemma log_all_spec inter e : forall l ret stdin a trace stdin',
  log_all fuel click inter l e ret stdin = Some (a, trace, stdin') ->
  map fst trace = map fst l
  /\ (forall i fx, In (i, fx) trace -> exists s b st st', In (i, s) l /\ sink_log fuel click s e st = Some (b, fx, st'))
  /\ ((forall i, inter = Some i -> ~ In i (map fst l)) -> a = ret)
  /\ (forall i, inter = Some i -> NoDup (map fst l) -> In i (map fst l) ->
      exists s fx st st', In (i, s) l /\ In (i, fx) trace /\ sink_log fuel click s e st = Some (a, fx, st')).
Proof.
  induction l as [|[j s] l IH]; cbn [log_all]; intros ret stdin a trace stdin' E.
  - injection E as <- <- <-. cbn. repeat split; easy.
  - destruct (sink_log fuel click s e stdin) as [[[res fx] st1]|] eqn:Es; [|discriminate].
    set (ret' := match inter with Some j0 => if j =? j0 then res else ret | None => ret end) in E.
    destruct (log_all fuel click inter l e ret' st1) as [[[a' trace'] st2]|] eqn:El; [|discriminate].
    injection E as <- <- <-. apply IH in El. destruct El as (K & S1 & N & A). cbn [map fst]. repeat split.
    + now rewrite K.
    + intros i gx [[= <- <-]|G].
      * exists s, res, stdin, st1. split; [now left|assumption].
      * destruct (S1 i gx G) as (t & b & st & st' & I & Q). exists t, b, st, st'. split; [now right|assumption].
    + intros H. rewrite N.
      * unfold ret'. destruct inter as [i|]; [|reflexivity]. destruct (Nat.eqb_spec j i) as [->|]; [|reflexivity].
        exfalso. apply (H i eq_refl). now left.
      * intros i Ei I. apply (H i Ei). now right.
    + intros i Ei ND I. inversion ND as [|? ? ND1 ND2]; subst. destruct (Nat.eq_dec j i) as [->|Ne].
      * assert (a' = res).
        { rewrite N; [unfold ret'; now rewrite Nat.eqb_refl|]. now intros ? [= <-]. }
        subst. exists s, fx, stdin, st1. repeat split; [now left|now left|assumption].
      * cbn in I. destruct I as [I|I]; [now subst|].
        destruct (A i eq_refl ND2 I) as (t & gx & st & st' & It & Ig & Q).
        exists t, gx, st, st'. repeat split; [now right|now right|assumption].
Qed.

End Log.

(** * Questions on the command line *)
Lemma from_string_typed s : (exists a, typed s a /\ from_string s = a /\ a <> NOTHING) \/ ((forall a, ~ typed s a) /\ from_string s = NOTHING).
Proof.
  unfold from_string. repeat (match goal with |- context [string_dec s ?x] => destruct (string_dec s x) as [->|] end;
    [left; eexists; repeat split; [constructor|discriminate]|]).
  right. split; [|reflexivity]. intros a T. now inversion T; subst.
Qed.

Lemma typed_from s a : typed s a -> from_string s = a /\ a <> NOTHING.
Proof. now intros []. Qed.

Lemma ask_again n prompt s rest : from_string s = NOTHING ->
  ask (S n) prompt (s :: rest)
  = match ask n prompt rest with Some (a, fx, st) => Some (a, Print prompt :: fx, st) | None => None end.
Proof. intros E. cbn [ask]. now rewrite E. Qed.

Lemma ask_answered prompt ln a rest : typed ln a -> forall pre, (forall s b, In s pre -> ~ typed s b) ->
  ask (S (List.length pre)) prompt (pre ++ ln :: rest) = Some (a, repeat (Print prompt) (S (List.length pre)), rest).
Proof.
  intros T. induction pre as [|s pre IH]; intros P.
  - cbn. destruct (typed_from _ _ T) as [-> N]. now destruct a.
  - cbn [List.length app]. destruct (from_string_typed s) as [(b & Tb & _)|[_ E]].
    + exfalso. eapply P; [now left|exact Tb].
    + rewrite (ask_again _ _ _ _ E), IH; [reflexivity|]. intros t b I. apply P. now right.
Qed.

Lemma ask_ended prompt : forall fuel stdin, (forall s b, In s stdin -> ~ typed s b) -> ask fuel prompt stdin = None.
Proof.
  induction fuel as [|n IH]; intros stdin P; [reflexivity|]. cbn. destruct stdin as [|s rest].
  - cbn. rewrite IH; [reflexivity|]. easy.
  - destruct (from_string_typed s) as [(b & Tb & _)|[_ ->]].
    + exfalso. eapply P; [now left|exact Tb].
    + rewrite IH; [reflexivity|]. intros t b I. apply P. now right.
Qed.

(** * Sinks *)
Lemma contained_here a x y : contained a (x ++ a ++ y)%string.
Proof. now exists x, y. Qed.

Lemma append_assoc (a b c : string) : ((a ++ b) ++ c)%string = (a ++ b ++ c)%string.
Proof. induction a as [|h a IH]; cbn; [reflexivity|]. now rewrite IH. Qed.

Lemma append_nil (a : string) : (a ++ "")%string = a.
Proof. induction a as [|h a IH]; cbn; [reflexivity|]. now rewrite IH. Qed.

Lemma cli_text l m i d :
  let t := (level_to_emoji l ++ " " ++ level_to_string l ++ ": " ++ m
            ++ (if string_dec i "" then "" else " " ++ i) ++ (if string_dec d "" then "" else newline ++ d))%string in
  contained m t /\ contained i t /\ contained d t.
Proof.
  cbv zeta. repeat split.
  - eexists (level_to_emoji l ++ " " ++ level_to_string l ++ ": ")%string, _. now rewrite !append_assoc.
  - destruct (string_dec i "") as [->|N].
    + eexists EmptyString, _. reflexivity.
    + eexists (level_to_emoji l ++ " " ++ level_to_string l ++ ": " ++ m ++ " ")%string, _. now rewrite !append_assoc.
  - destruct (string_dec d "") as [->|N].
    + eexists EmptyString, _. reflexivity.
    + eexists (level_to_emoji l ++ " " ++ level_to_string l ++ ": " ++ m ++ (if string_dec i "" then "" else " " ++ i) ++ newline)%string, EmptyString.
      now rewrite !append_assoc, append_nil.
Qed.

(** A command line sink that is not interactive says the message, or nothing if
    it is an information and it is not verbose; it never reads. *)
Lemma cli_silent fuel verbose e stdin :
  exists fx, cli_log fuel verbose false e stdin = Some (NOTHING, fx, stdin)
    /\ ((level e = INFO /\ verbose = false /\ fx = []) \/ ((level e <> INFO \/ verbose = true) /\ shows e fx)).
Proof.
  unfold cli_log. cbn [andb]. destruct (Level_eq_dec (level e) INFO) as [E|E]; [destruct verbose|]; cbn [andb negb app].
  - eexists. split; [reflexivity|]. right. split; [now right|]. eexists. split; [now left|]. apply cli_text.
  - eexists. split; [reflexivity|]. now left.
  - eexists. split; [reflexivity|]. right. split; [now left|]. eexists. split; [now left|]. apply cli_text.
Qed.

Lemma to_from a : a <> NOTHING -> from_qt (to_qt a) = a.
Proof. now destruct a. Qed.

Lemma contains_in a l : contains a l = true <-> In a l.
Proof.
  unfold contains. rewrite existsb_exists. split.
  - intros (x & I & E). now destruct (UserAction_eq_dec a x) as [->|].
  - intros I. exists a. split; [assumption|]. now destruct (UserAction_eq_dec a a).
Qed.

Lemma all_buttons l : ~ In NOTHING l -> to_qt_buttons l = map to_qt l.
Proof.
  unfold to_qt_buttons. induction l as [|a l IH]; [reflexivity|]. intros N. cbn [filter].
  destruct (UserAction_eq_dec a NOTHING) as [->|]; [exfalso; apply N; now left|]. cbn. rewrite IH; [reflexivity|].
  intros I. apply N. now right.
Qed.

Lemma qt_boxed click e : user_actions e <> [] -> ~ In NOTHING (user_actions e) ->
  qt_log click true e
  = (from_qt (click (map to_qt (user_actions e))),
     [MessageBox (level e) (message e) (informative e) (details e) (map to_qt (user_actions e))]).
Proof.
  intros E N. unfold qt_log. rewrite (all_buttons _ N).
  destruct (contains NOTHING (user_actions e)) eqn:C; [now apply contains_in in C|].
  destruct (user_actions e); [easy|]. rewrite andb_comm. reflexivity.
Qed.
