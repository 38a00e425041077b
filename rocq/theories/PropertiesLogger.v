(** Properties C77 and C78: what the program says, what it is answered, how it
    ends. *)
From Coq Require Import List Bool Arith String Lia Sorted.
From Verif Require Import LoggerModel LoggerSpec LoggerProofs.
From Verif Require AppModel.
Import AppModel(OutputFormat(..), app_params, mkParams, p_input, p_output, p_force, p_format).
Import ListNotations.
Local Open Scope string_scope.
Local Open Scope nat_scope.
Local Open Scope list_scope.

(** * C77 *)
(** However the logger was set up: the sink of a key is the first one
    registered under it; the sinks are in the order of their keys; the
    interactive sink is the last one chosen, it is there, and it is the only one
    that knows itself to be interactive. *)
Theorem C77_set_up l :
  let g := after l in
  StronglySorted lt (map fst (sinks g))
  /\ (forall i k, (exists s, In (i, s) (sinks g) /\ sk_kind s = k) <-> first_kind i l = Some k)
  /\ interactive_sink g = chosen (rev l)
  /\ (forall i s, In (i, s) (sinks g) -> (is_interactive s = true <-> chosen (rev l) = Some i))
  /\ (forall i, chosen (rev l) = Some i -> i <> 0 /\ exists s, In (i, s) (sinks g)).
Proof.
  cbv zeta. pose proof (after_good l) as [O K C I T]. repeat split.
  - exact O.
  - intros (s & J & <-). rewrite <- K, (in_find _ _ _ O J). reflexivity.
  - rewrite <- K. intros E. destruct (find i (sinks (after l))) as [s|] eqn:F; [|discriminate].
    exists s. split; [now apply find_in|]. now injection E.
  - exact C.
  - intros X. rewrite <- C. apply (I i s); [now apply in_find|assumption].
  - intros X. apply (I i s); [now apply in_find|now rewrite C].
  - intros ->. revert H. clear. induction (rev l) as [|[i k []|i] r IH]; cbn; try easy.
    + now destruct i.
    + destruct i; [easy|]. cbn. now destruct (first_kind _ _).
  - rewrite <- C in H. apply T in H. destruct (find i (sinks (after l))) as [s|] eqn:F; [|easy]. exists s. now apply find_in.
Qed.

Example C77_two_sinks :
  let l := [Register 5 (CliSink true) true; Register 3 QtSink true; Register 5 QtSink true; SetInteractive 9; SetInteractive 3] in
  after l = mkLogger (Some 3) [(3, mkSink QtSink true); (5, mkSink (CliSink true) false)]
  /\ chosen (rev l) = Some 3 /\ first_kind 5 l = Some (CliSink true).
Proof. repeat split. Qed.

(** A message for one sink that is there goes to this one only, any other
    message to each sink, once, in order.  The answer is that of the one sink,
    resp. of the interactive one, and no answer if there is none. *)
Theorem C77_delivered fuel click l e stdin a trace stdin' :
  log fuel click (after l) e stdin = Some (a, trace, stdin') ->
  (destination e <> 0 /\ first_kind (destination e) l <> None /\ map fst trace = [destination e]
   /\ exists s fx, In (destination e, s) (sinks (after l)) /\ trace = [(destination e, fx)]
        /\ sink_log fuel click s e stdin = Some (a, fx, stdin'))
  \/ ((destination e = 0 \/ first_kind (destination e) l = None)
      /\ map fst trace = map fst (sinks (after l))
      /\ (forall i fx, In (i, fx) trace ->
          exists s b st st', In (i, s) (sinks (after l)) /\ sink_log fuel click s e st = Some (b, fx, st'))
      /\ match chosen (rev l) with
         | None => a = NOTHING
         | Some i => exists s fx st st', In (i, s) (sinks (after l)) /\ is_interactive s = true
                       /\ In (i, fx) trace /\ sink_log fuel click s e st = Some (a, fx, st')
         end).
Proof.
  pose proof (after_good l) as [O K C I T]. unfold log. destruct (Nat.eqb_spec (destination e) 0) as [D|D].
  2: destruct (find (destination e) (sinks (after l))) as [s|] eqn:F.
  - intros E. right. split; [now left|]. apply log_all_spec in E. destruct E as (Ks & S1 & N & A). split; [assumption|].
    split; [assumption|]. rewrite <- C. destruct (interactive_sink (after l)) as [i|] eqn:Ei; [|apply N; discriminate].
    specialize (T i eq_refl). destruct (find i (sinks (after l))) as [s|] eqn:Fi; [|easy]. apply find_in in Fi as J.
    destruct (A i eq_refl) as (s' & fx & st & st' & Js & Jf & Q).
    + clear -O. unfold ordered in O. induction O as [|x r O IH F]; constructor; [|assumption]. rewrite Forall_forall in F.
      intros X. apply F in X. lia.
    + apply (in_map fst) in J. exact J.
    + exists s', fx, st, st'. repeat split; try assumption. apply (I i s'); [now apply in_find|reflexivity].
  - intros E. destruct (sink_log fuel click s e stdin) as [[[b fx] st]|] eqn:Es; [|discriminate]. injection E as <- <- <-.
    left. split; [assumption|]. split; [rewrite <- K, F; discriminate|]. split; [reflexivity|].
    exists s, fx. split; [now apply find_in|]. now split.
  - intros E. right. split; [right; now rewrite <- K, F|]. apply log_all_spec in E. destruct E as (Ks & S1 & N & A). split; [assumption|].
    split; [assumption|]. rewrite <- C. destruct (interactive_sink (after l)) as [i|] eqn:Ei; [|apply N; discriminate].
    specialize (T i eq_refl). destruct (find i (sinks (after l))) as [s|] eqn:Fi; [|easy]. apply find_in in Fi as J.
    destruct (A i eq_refl) as (s' & fx & st & st' & Js & Jf & Q).
    + clear -O. unfold ordered in O. induction O as [|x r O IH F']; constructor; [|assumption]. rewrite Forall_forall in F'.
      intros X. apply F' in X. lia.
    + apply (in_map fst) in J. exact J.
    + exists s', fx, st, st'. repeat split; try assumption. apply (I i s'); [now apply in_find|reflexivity].
Qed.

(** On the command line nothing is ever asked: a message is shown, or dropped if
    it is an information and the program is not verbose, and the program goes
    on. *)
Theorem C77_command_line fuel click cli verbose e stdin :
  exists fx, log fuel click (cli_logger cli verbose) e stdin = Some (NOTHING, [(cli, fx)], stdin)
    /\ ((level e = INFO /\ verbose = false /\ fx = []) \/ ((level e <> INFO \/ verbose = true) /\ shows e fx)).
Proof.
  destruct (cli_silent fuel verbose e stdin) as (fx & E & H). exists fx. split; [|assumption].
  unfold cli_logger, register_sink, log, sink_log. cbn [emplace sinks new_logger interactive_sink find].
  destruct (Nat.eqb_spec (destination e) 0) as [D|D].
  - cbn [log_all sink_log sk_kind is_interactive]. unfold sink_log. cbn [sk_kind is_interactive]. now rewrite E.
  - destruct (Nat.eqb_spec (destination e) cli) as [->|D'].
    + cbn [sk_kind is_interactive]. now rewrite E.
    + cbn [log_all]. unfold sink_log. cbn [sk_kind is_interactive]. now rewrite E.
Qed.

(** In the window, a message that offers actions is a box with a button for each
    of them, and the answer is the one that is pressed, hence one that was
    offered; a message without actions goes to the status bar.  The command line
    shows them too, and never waits for an answer. *)
Theorem C77_window fuel click cli qt verbose e stdin :
  cli <> qt -> qt <> 0 -> (forall b, b <> [] -> In (click b) b) -> destination e = 0 ->
  let offered := user_actions e in
  ~ In NOTHING offered -> (level e = QUESTION -> offered <> []) ->
  exists a trace, log fuel click (gui_logger cli qt verbose) e stdin = Some (a, trace, stdin)
    /\ (exists fx, In (cli, fx) trace
          /\ ((level e = INFO /\ verbose = false /\ fx = []) \/ ((level e <> INFO \/ verbose = true) /\ shows e fx)))
    /\ (offered <> [] -> In a offered
        /\ In (qt, [MessageBox (level e) (message e) (informative e) (details e) (map to_qt offered)]) trace
        /\ to_qt a = click (map to_qt offered))
    /\ (offered = [] -> a = NOTHING /\ In (qt, [StatusBar (message e)]) trace)
    /\ Datatypes.length trace = 2.
Proof.
  intros Ne Nq Ck D offered NN Q. destruct (cli_silent fuel verbose e stdin) as (fx & Ef & Hf).
  assert (Qt : exists a gx, qt_log click true e = (a, gx)
            /\ (offered <> [] -> In a offered
                /\ gx = [MessageBox (level e) (message e) (informative e) (details e) (map to_qt offered)]
                /\ to_qt a = click (map to_qt offered))
            /\ (offered = [] -> a = NOTHING /\ gx = [StatusBar (message e)])).
  { destruct (user_actions e) as [|x r] eqn:U.
    - exists NOTHING, [StatusBar (message e)]. split; [|now split].
      unfold qt_log. rewrite U. destruct (Level_eq_dec (level e) QUESTION) as [L|]; [now apply Q in L|reflexivity].
    - rewrite qt_boxed by now rewrite U. rewrite U. eexists _, _. split; [reflexivity|]. split; [|easy]. intros _.
      assert (B : In (click (map to_qt (x :: r))) (map to_qt (x :: r))) by (apply Ck; discriminate).
      apply in_map_iff in B. destruct B as (a & Ea & Ia). unfold offered. rewrite <- Ea.
      assert (a <> NOTHING) by (intros ->; now apply NN). rewrite to_from by assumption. repeat split; assumption. }
  destruct Qt as (a & gx & Eg & H1 & H2). exists a. unfold gui_logger, cli_logger, register_sink, log. rewrite D. cbn [Nat.eqb].
  unfold new_logger. cbn [interactive_sink sinks emplace].
  destruct (Nat.eqb_spec qt cli) as [X|_]; [now subst|]. destruct (Nat.ltb qt cli).
  - exists [(qt, gx); (cli, fx)]. unfold set_as_the_interactive. cbn [sinks interactive_sink find].
    destruct (Nat.eqb_spec qt 0) as [X|_]; [easy|]. cbn [find]. rewrite Nat.eqb_refl. cbn [map fst snd sk_kind sinks interactive_sink log_all].
    rewrite Nat.eqb_refl. destruct (Nat.eqb_spec cli qt) as [X|_]; [easy|]. unfold sink_log. cbn [sk_kind is_interactive].
    rewrite Eg, Ef. split; [reflexivity|]. split; [exists fx; split; [right; now left|assumption]|].
    split; [intros O; destruct (H1 O) as (A & -> & B); repeat split; try assumption; now left|].
    split; [intros O; destruct (H2 O) as (A & ->); split; [assumption|now left]|reflexivity].
  - exists [(cli, fx); (qt, gx)]. unfold set_as_the_interactive. cbn [sinks interactive_sink find].
    destruct (Nat.eqb_spec qt 0) as [X|_]; [easy|]. cbn [find]. destruct (Nat.eqb_spec qt cli) as [X|_]; [now subst|].
    rewrite Nat.eqb_refl. cbn [map fst snd sk_kind sinks interactive_sink log_all].
    rewrite Nat.eqb_refl. destruct (Nat.eqb_spec cli qt) as [X|_]; [easy|]. unfold sink_log. cbn [sk_kind is_interactive].
    rewrite Ef, Eg. split; [reflexivity|]. split; [exists fx; split; [now left|assumption]|].
    split; [intros O; destruct (H1 O) as (A & -> & B); repeat split; try assumption; right; now left|].
    split; [intros O; destruct (H2 O) as (A & ->); split; [assumption|right; now left]|reflexivity].
Qed.

(** The question of main_window.cpp 745-750. *)
Definition closing : LogEvent := mkEvent 0 QUESTION [CANCEL; SAVE; CLOSE]
  "You are about closing a unsaved document, do you want to save it before?" "" "".
Definition last_button (b : list button) : button := last b NoButton.

Example C77_closing :
  log 0 last_button (gui_logger 4 2 false) closing []
  = Some (CLOSE, [(2, [MessageBox QUESTION (message closing) "" "" [BCancel; BSave; BClose]]);
                  (4, [Print ("❓ Question: " ++ message closing); Print newline])], [])
  /\ (forall b, b <> [] -> In (last_button b) b).
Proof.
  split; [reflexivity|]. intros b N. unfold last_button. destruct (exists_last N) as (x & y & ->). rewrite last_last.
  apply in_app_iff. right. now left.
Qed.

(** A question put to a command line that is the interactive one: the prompt is
    given until a line is one of the known letters.  If there is no such line
    the program never ends, be it at the end of its input. *)
Theorem C77_question click verbose e :
  level e = QUESTION -> user_actions e <> [] ->
  (forall pre ln a rest, (forall s b, In s pre -> ~ typed s b) -> typed ln a ->
     exists fuel said, shows e [said]
       /\ sink_log fuel click (mkSink (CliSink verbose) true) e (pre ++ ln :: rest)
          = Some (a, said :: repeat (Print (" " ++ actions_to_string (user_actions e) ++ " ? ")) (S (Datatypes.length pre)), rest))
  /\ (forall stdin, (forall s b, In s stdin -> ~ typed s b) ->
      forall fuel, sink_log fuel click (mkSink (CliSink verbose) true) e stdin = None).
Proof.
  intros L U. unfold sink_log. cbn [sk_kind is_interactive]. unfold cli_log. rewrite L. cbn [andb].
  destruct (user_actions e) as [|x r] eqn:Ua; [easy|]. rewrite <- Ua. clear U. cbn [Level_eq_dec Level_rec Level_rect andb]. split.
  - intros pre ln a rest P T. exists (S (Datatypes.length pre)). rewrite (ask_answered _ ln a rest T pre P). cbn [andb app].
    eexists. split; [|reflexivity]. eexists. split; [now left|]. apply cli_text.
  - intros stdin P fuel. now rewrite (ask_ended _ fuel stdin P).
Qed.

(** A yes or no question is answered with "abort", after the third prompt. *)
Definition yes_or_no : LogEvent := mkEvent 0 QUESTION [CANCEL; OK] "Really" "" "".

(** The answer should be one of those that are offered.  It is not. *)
Theorem C77_offered_refuted :
  ~ (forall fuel click verbose e stdin a fx rest,
       level e = QUESTION -> user_actions e <> [] ->
       sink_log fuel click (mkSink (CliSink verbose) true) e stdin = Some (a, fx, rest) -> In a (user_actions e)).
Proof.
  intros H. specialize (H 3 last_button true yes_or_no ["yes"; ""; "a"]%string ABORT).
  cbn in H. destruct (H _ _ eq_refl ltac:(discriminate) eq_refl) as [X|[X|[]]]; discriminate.
Qed.

(** * C78 *)
(** How a run ends: with one message; with a failure if and only if this message
    is an error, and then no file was written; else with an information that
    names the output, which is the input by default. *)
Theorem C78_ends name k parse_error grid args s events files :
  main name k parse_error grid args = (s, events, files) ->
  exists e, events = [e]
    /\ match s with
       | EXIT_FAILURE => level e = ERROR /\ files = []
       | EXIT_SUCCESS => level e = INFO /\ parse_error = None
           /\ contained (name (if p_output args =? 0 then p_input args else p_output args)) (message e)
       end.
Proof.
  unfold main. destruct parse_error as [err|]; [intros [= <- <- <-]; eexists; now split|].
  destruct (AppModel.is_about_overwriting _ _ _); [intros [= <- <- <-]; eexists; now split|].
  unfold write. set (o := p_output (AppModel.final_callback args)).
  assert (W : forall fs, (EXIT_SUCCESS, [mkEvent 0 INFO [] ("Saved file " ++ quote ++ name o ++ quote) "" ""], fs) = (s, events, files) ->
    exists e, events = [e]
    /\ match s with
       | EXIT_FAILURE => level e = ERROR /\ files = []
       | EXIT_SUCCESS => level e = INFO /\ @None string = None
           /\ contained (name (if p_output args =? 0 then p_input args else p_output args)) (message e)
       end).
  { intros fs [= <- <- <-]. eexists. split; [reflexivity|]. repeat split. exists ("Saved file " ++ quote)%string, quote. reflexivity. }
  destruct (p_format _); [destruct (reload_error k) as [err|]|..]; try apply W. intros [= <- <- <-]. eexists. now split.
Qed.

(** With a disk that takes the file, a run writes what [C15] says; a success
    in a format that makes a file means that the output was written. *)
Theorem C78_written name k parse_error grid args s events files :
  main name k parse_error grid args = (s, events, files) -> writable k = true ->
  files = AppModel.main_cli (exists_ k) (match parse_error with None => true | Some _ => false end)
            (match reload_error k with None => true | Some _ => false end) grid args
  /\ (s = EXIT_SUCCESS -> p_format args <> PRETTYPRINT ->
      files = [if p_output args =? 0 then p_input args else p_output args]).
Proof.
  unfold main, AppModel.main_cli. intros E W. destruct parse_error as [err|]; cbn [negb]; [now injection E as <- <- <-|].
  destruct (AppModel.is_about_overwriting _ _ _); [now injection E as <- <- <-|]. unfold write, AppModel.write in *. rewrite W in E.
  destruct args as [i o fo f]. cbn [AppModel.final_callback AppModel.p_format AppModel.p_output AppModel.p_input AppModel.p_force] in *.
  destruct f; [destruct (reload_error k)|..]; injection E as <- <- <-; repeat split; try discriminate; easy.
Qed.

(** "Saved file" should mean that there is a file.  It does not, if the disk is
    full or can not be written, ... *)
Theorem C78_saved_refuted :
  ~ (forall name k parse_error grid args s events files,
       main name k parse_error grid args = (s, events, files) -> p_format args <> PRETTYPRINT ->
       s = EXIT_SUCCESS -> files <> []).
Proof.
  intros H. specialize (H (fun _ => "f"%string) (mkDisk (fun _ => false) None false) None false (mkParams 1 2 false CSX)).
  cbn in H. now apply (H _ _ _ eq_refl).
Qed.

(** ... nor, whatever the disk, with the pretty-print format. *)
Theorem C78_printed name k parse_error grid args s events files :
  main name k parse_error grid args = (s, events, files) -> p_format args = PRETTYPRINT -> s = EXIT_SUCCESS ->
  files = [] /\ exists o, events = [mkEvent 0 INFO [] ("Saved file " ++ quote ++ name o ++ quote) "" ""].
Proof.
  destruct args as [i o fo f]. unfold main, write. cbn [AppModel.final_callback AppModel.p_format]. intros E -> ->.
  destruct parse_error as [err|]; [discriminate|].
  destruct (AppModel.is_about_overwriting _ _ _); [discriminate|]. injection E as <- <-. split; [reflexivity|]. now eexists.
Qed.

(** Without a name for the output the input is to be completed.  As the input
    exists (cli.cpp checks it), this always fails without --force, whether it has
    a grid already or not. *)
Theorem C78_default name k parse_error grid i s events files :
  main name k parse_error grid (mkParams i 0 false CSX) = (s, events, files) -> exists_ k i = true ->
  s = EXIT_FAILURE /\ files = [].
Proof.
  unfold main. destruct parse_error as [err|]; [now intros [= <- <- <-]|]. cbn. intros E X. rewrite X in E. cbn in E. now injection E as <- <- <-.
Qed.

Example C78_cases :
  let name := fun n => match n with 1 => "in.csx" | _ => "out.csx" end%string in
  let k := mkDisk (fun n => n =? 1) None true in
  main name k None true (mkParams 1 2 false CSX)
    = (EXIT_SUCCESS, [mkEvent 0 INFO [] ("Saved file " ++ quote ++ "out.csx" ++ quote) "" ""], [2])
  /\ fst (fst (main name k None false (mkParams 1 0 false CSX))) = EXIT_FAILURE
  /\ snd (main name k None false (mkParams 1 0 true CSX)) = [1]
  /\ fst (fst (main name k (Some "no document element"%string) false (mkParams 1 2 false CSX))) = EXIT_FAILURE
  /\ fst (fst (main name k None false (mkParams 1 2 false PRETTYPRINT))) = EXIT_SUCCESS.
Proof. repeat split. Qed.

Print Assumptions C77_set_up.
Print Assumptions C77_delivered.
Print Assumptions C77_command_line.
Print Assumptions C77_window.
Print Assumptions C77_question.
Print Assumptions C77_offered_refuted.
Print Assumptions C78_ends.
Print Assumptions C78_written.
Print Assumptions C78_saved_refuted.
Print Assumptions C78_printed.
Print Assumptions C78_default.
