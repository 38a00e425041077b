(** Model of utils/logger, ui/cli/logger, ui/qt/logger and of what main.cpp and
    ui/qt/main_window.cpp say with them.  No proofs here.

    Simplified: a message box ends with the button [click] chooses, any function
    of the buttons shown (QMessageBox::exec is not modelled); standard input is
    a finite list of lines, then it is at its end. *)
From Coq Require Import List Bool Arith String.
From Verif Require AppModel.
Import AppModel(OutputFormat(..), app_params, mkParams, p_input, p_output, p_force, p_format, final_callback, is_about_overwriting).
Import ListNotations.
Local Open Scope string_scope.
Local Open Scope nat_scope.

(** utils/logger.hpp 19-24 *)
Inductive Level := QUESTION | INFO | WARNING | ERROR.

(** utils/logger.hpp 27-34 *)
Inductive UserAction := NOTHING | CANCEL | OK | SAVE | CLOSE | ABORT.

Definition UserAction_eq_dec (a b : UserAction) : {a = b} + {a <> b}.
Proof. decide equality. Defined.

Definition Level_eq_dec (a b : Level) : {a = b} + {a <> b}.
Proof. decide equality. Defined.

(** std::set::contains *)
Definition contains (a : UserAction) (l : list UserAction) : bool :=
  existsb (fun b => if UserAction_eq_dec a b then true else false) l.

(** utils/logger.hpp 38-46.  [user_actions] is a std::set: its elements in
    order.  Simplified: without [default_user_action], nobody sets it. *)
Record LogEvent := mkEvent {
  destination : nat;
  level : Level;
  user_actions : list UserAction;
  message : string;
  informative : string;
  details : string
}.

(** ui/cli/logger.cpp 21-29 *)
Definition level_to_string (l : Level) : string :=
  match l with QUESTION => "Question" | INFO => "Info" | WARNING => "Warning" | ERROR => "Error" end.

(** ui/cli/logger.cpp 32-46 *)
Definition level_to_emoji (l : Level) : string :=
  match l with QUESTION => "❓" | INFO => "ℹ️ " | WARNING => "⚠️ " | ERROR => "⛔" end.

(** ui/cli/logger.cpp 49-59 *)
Definition action_to_string (a : UserAction) : string :=
  match a with NOTHING => "" | CANCEL => "n" | OK => "y" | SAVE => "s" | CLOSE => "c" | ABORT => "a" end.

(** ui/cli/logger.cpp 62-68 *)
Definition actions_to_string (l : list UserAction) : string :=
  "[" ++ String.concat "/" (map action_to_string l) ++ "]".

(** ui/cli/logger.cpp 71-78 *)
Definition from_string (s : string) : UserAction :=
  if string_dec s "n" then CANCEL
  else if string_dec s "y" then OK
  else if string_dec s "s" then SAVE
  else if string_dec s "c" then CLOSE
  else if string_dec s "a" then ABORT
  else NOTHING.

(** QMessageBox::StandardButton, those that are used. *)
Inductive button := NoButton | BCancel | BOk | BSave | BClose | BAbort | BIgnore.

(** ui/qt/logger.cpp 19-29 *)
Definition from_qt (b : button) : UserAction :=
  match b with
  | BCancel => CANCEL | BOk => OK | BSave => SAVE | BClose => CLOSE | BAbort => ABORT
  | NoButton | BIgnore => NOTHING
  end.

(** ui/qt/logger.cpp 32-42 *)
Definition to_qt (a : UserAction) : button :=
  match a with
  | NOTHING => NoButton | CANCEL => BCancel | OK => BOk | SAVE => BSave | CLOSE => BClose | ABORT => BAbort
  end.

(** ui/qt/logger.cpp 45-50: NoButton is zero, it adds nothing. *)
Definition to_qt_buttons (l : list UserAction) : list button :=
  map to_qt (filter (fun a => if UserAction_eq_dec a NOTHING then false else true) l).

(** What a sink does: print on the standard error output, write in the status
    bar, show a message box. *)
Inductive effect :=
| Print (text : string)
| StatusBar (text : string)
| MessageBox (l : Level) (text informative details : string) (buttons : list button).

(** ui/cli/logger.hpp, ui/qt/logger.hpp *)
Inductive kind := CliSink (verbose : bool) | QtSink.

(** utils/logger.hpp 48-57 *)
Record sink := mkSink { sk_kind : kind; is_interactive : bool }.

(** utils/logger.hpp 70-71.  The map is the list of its pairs by increasing
    keys.  A sink is never removed, so the pointer to one is its key. *)
Record logger := mkLogger { interactive_sink : option nat; sinks : list (nat * sink) }.

(** utils/logger.cpp 24-27: no sink. *)
Definition new_logger : logger := mkLogger None [].

Fixpoint find (i : nat) (l : list (nat * sink)) : option sink :=
  match l with
  | [] => None
  | (j, s) :: l => if i =? j then Some s else find i l
  end.

(** std::map::emplace: nothing if the key is there already. *)
Fixpoint emplace (i : nat) (s : sink) (l : list (nat * sink)) : list (nat * sink) :=
  match l with
  | [] => [(i, s)]
  | (j, t) :: r => if i =? j then l else if i <? j then (i, s) :: l else (j, t) :: emplace i s r
  end.

(** utils/logger.cpp 30-42 *)
Definition set_as_the_interactive (i : nat) (g : logger) : logger :=
  if i =? 0 then mkLogger None (map (fun p => (fst p, mkSink (sk_kind (snd p)) false)) (sinks g))
  else match find i (sinks g) with
       | Some _ => mkLogger (Some i) (map (fun p => (fst p, mkSink (sk_kind (snd p)) (fst p =? i))) (sinks g))
       | None => g
       end.

(** utils/logger.cpp 45-49.  A new sink is not interactive (utils/logger.hpp 56). *)
Definition register_sink (i : nat) (k : kind) (is_the_interactive : bool) (g : logger) : logger :=
  let g' := mkLogger (interactive_sink g) (emplace i (mkSink k false) (sinks g)) in
  if is_the_interactive then set_as_the_interactive i g' else g'.

(** ui/cli/logger.cpp 99-106: the loop; [None]: the fuel is out.  At the end of
    the input std::getline leaves an empty line. *)
Fixpoint ask (fuel : nat) (prompt : string) (stdin : list string) : option (UserAction * list effect * list string) :=
  match fuel with
  | 0 => None
  | S n =>
      let (ln, rest) := match stdin with [] => ("", []) | ln :: rest => (ln, rest) end in
      match from_string ln with
      | NOTHING => match ask n prompt rest with
                   | Some (a, fx, stdin') => Some (a, Print prompt :: fx, stdin')
                   | None => None
                   end
      | a => Some (a, [Print prompt], rest)
      end
  end.

Definition newline : string := String (Ascii.ascii_of_nat 10) EmptyString.

(** ui/cli/logger.cpp 86-112 *)
Definition cli_log (fuel : nat) (verbose interactive : bool) (e : LogEvent) (stdin : list string)
  : option (UserAction * list effect * list string) :=
  let quiet := (if Level_eq_dec (level e) INFO then true else false) && negb verbose in
  let said :=
    if quiet then []
    else [Print (level_to_emoji (level e) ++ " " ++ level_to_string (level e) ++ ": " ++ message e
                 ++ (if string_dec (informative e) "" then "" else " " ++ informative e)
                 ++ (if string_dec (details e) "" then "" else newline ++ details e))] in
  if interactive && (if Level_eq_dec (level e) QUESTION then true else false)
     && match user_actions e with [] => false | _ => true end then
    match ask fuel (" " ++ actions_to_string (user_actions e) ++ " ? ") stdin with
    | Some (a, fx, stdin') => Some (a, (said ++ fx)%list, stdin')
    | None => None
    end
  else Some (NOTHING, (said ++ if quiet then [] else [Print newline])%list, stdin).

(** ui/qt/logger.cpp 70-89; [click] is the button pressed. *)
Definition qt_log (click : list button -> button) (interactive : bool) (e : LogEvent) : UserAction * list effect :=
  if (if Level_eq_dec (level e) QUESTION then false else true)
     && (match user_actions e with [] => true | _ => false end || contains NOTHING (user_actions e))
  then (NOTHING, [StatusBar (message e)])
  else
    let buttons := if interactive then to_qt_buttons (user_actions e) else [BIgnore] in
    (from_qt (click buttons), [MessageBox (level e) (message e) (informative e) (details e) buttons]).

(** The call of ISink::log. *)
Definition sink_log (fuel : nat) (click : list button -> button) (s : sink) (e : LogEvent) (stdin : list string)
  : option (UserAction * list effect * list string) :=
  match sk_kind s with
  | CliSink verbose => cli_log fuel verbose (is_interactive s) e stdin
  | QtSink => let (a, fx) := qt_log click (is_interactive s) e in Some (a, fx, stdin)
  end.

(** utils/logger.cpp 56-62: the loop over the sinks; the effects go with the
    keys of the sinks that made them. *)
Fixpoint log_all (fuel : nat) (click : list button -> button) (interactive : option nat) (l : list (nat * sink))
    (e : LogEvent) (ret : UserAction) (stdin : list string)
  : option (UserAction * list (nat * list effect) * list string) :=
  match l with
  | [] => Some (ret, [], stdin)
  | (i, s) :: l =>
      match sink_log fuel click s e stdin with
      | None => None
      | Some (res, fx, stdin1) =>
          let ret' := match interactive with Some j => if i =? j then res else ret | None => ret end in
          match log_all fuel click interactive l e ret' stdin1 with
          | None => None
          | Some (a, trace, stdin2) => Some (a, (i, fx) :: trace, stdin2)
          end
      end
  end.

(** utils/logger.cpp 52-64 *)
Definition log (fuel : nat) (click : list button -> button) (g : logger) (e : LogEvent) (stdin : list string)
  : option (UserAction * list (nat * list effect) * list string) :=
  match (if destination e =? 0 then None else find (destination e) (sinks g)) with
  | Some s => match sink_log fuel click s e stdin with
              | None => None
              | Some (a, fx, stdin') => Some (a, [(destination e, fx)], stdin')
              end
  | None => log_all fuel click (interactive_sink g) (sinks g) e NOTHING stdin
  end.

(** main.cpp 33; [cli] is Logger::id("Cli"). *)
Definition cli_logger (cli : nat) (verbose : bool) : logger := register_sink cli (CliSink verbose) false new_logger.

(** main.cpp 33 and main_window.cpp 108; [qt] is Logger::id("Qt"). *)
Definition gui_logger (cli qt : nat) (verbose : bool) : logger :=
  register_sink qt QtSink true (cli_logger cli verbose).

(** * main.cpp without the interface *)
(** What the file system answers to OpenEMSH::write: can the input be loaded
    again (serializer_to_csx.cpp 78-82, with its message if not) and can the
    output be written. *)
Record disk := mkDisk { exists_ : nat -> bool; reload_error : option string; writable : bool }.

(** app/openemsh.cpp 140-157: the files written, the printed board (for the
    pretty-print format, on the standard error output), the error.  The result
    of save_file (serializer_to_csx.cpp 130) and of the ofstream (openemsh.cpp
    147-148) is not looked at. *)
Definition write (k : disk) (p : app_params) : list nat * option string :=
  match p_format p with
  | CSX => match reload_error k with
           | Some err => ([], Some err)
           | None => (if writable k then [p_output p] else [], None)
           end
  | PLANTUML => (if writable k then [p_output p] else [], None)
  | PRETTYPRINT => ([], None)
  end.

Inductive status := EXIT_SUCCESS | EXIT_FAILURE.

Definition quote : string := String (Ascii.ascii_of_nat 34) EmptyString.

(** main.cpp 35-73 and 87: the exit status, the messages given to the logger, the files
    written.  [name] spells a path; [parse_error] is the error of
    OpenEMSH::parse; [grid] tells whether the board has a grid already.
    Simplified: the run itself ends. *)
Definition main (name : nat -> string) (k : disk) (parse_error : option string) (grid : bool) (args : app_params)
  : status * list LogEvent * list nat :=
  let p := final_callback args in
  match parse_error with
  | Some err =>
      (EXIT_FAILURE,
       [mkEvent 0 ERROR [] ("Failed to parse file " ++ quote ++ name (p_input p) ++ quote ++ " : " ++ err) "" ""], [])
  | None =>
      if is_about_overwriting (exists_ k) grid p then
        (EXIT_FAILURE,
         [mkEvent 0 ERROR [] ("You are about overwriting the file " ++ quote ++ name (p_output p) ++ quote
                              ++ ", use --force if that is what you want.") "" ""], [])
      else match write k p with
           | (files, Some err) =>
               (EXIT_FAILURE,
                [mkEvent 0 ERROR [] ("Failed to save file " ++ quote ++ name (p_output p) ++ quote ++ " : " ++ err) "" ""],
                files)
           | (files, None) =>
               (EXIT_SUCCESS, [mkEvent 0 INFO [] ("Saved file " ++ quote ++ name (p_output p) ++ quote) "" ""], files)
           end
  end.
