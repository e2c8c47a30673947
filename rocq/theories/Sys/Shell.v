(** The shell itself: how the lines a user types, or the commands of a script, become executions of commands
    (marcel/main.py: MainScript.parse_and_run_command 109-126, run_startup_scripts 162-169, MainInteractive.run 219-239,
    check_for_config_update 254-260, main_interactive_run 281-329, main_script_run 332-348, main 366-388, 391-402;
    marcel/env.py:339-342 take_next_command; marcel/op/run.py:73-74).

    What a command does is a parameter: [run_cmd] gives the new state of everything outside the loop (variables, files,
    history, ...), the exception with which [parse_and_run_command]'s try statement is left, and the command that run (! and
    !!) has recalled, if any. So are opening and closing a workspace, and whether its startup script has been modified since it was
    read (256-257).

    Simplifications. A command that runs as a job is one step (its exceptions stay in the child process, job.py:63-85, so its
    ending is [Done]; what jobs do meanwhile is in Jobs.v). go_to_current_dir, job control and tracing are left out. That
    reading a line calls the functions of PROMPT is left out. RecursionError, after some thousand failed attempts to open
    the default workspace (288-293), is left out: the attempts go on. *)
From Verif.Syntax Require Export Scripts.
Set Implicit Arguments.
Local Open Scope list_scope.

(** How a command ends: normally; EmptyCommand; KillCommandException; KillAndResumeException; ReconfigureException with
    the workspace to open; KeyboardInterrupt; EOFError; ExitException; KillShellException; any other exception. *)
Inductive ending : Type :=
  Done | Empty | Killed | Resumed | Reconfigure (to : option text) | Interrupt | EndOfFile | Exit | KillShell | Crash.

(** How opening a workspace ends: Environment.create and Main.__init__ succeed, with whether the workspace turned out to be
    damaged (needs_restart, 153) and the value of STARTUP_SCRIPTS (None: not a string); StartupScriptException
    (configscript.py:59); another KillCommandException (in use, no such workspace, ...); KillShellException; an Exception in
    Environment.create; an Exception in Main.__init__. *)
Inductive opening : Type :=
  Opened (damaged : bool) (scripts : list (option text)) | StartupError | Refused | OpenKillShell | OpenFails | InitFails.

(** How the shell ends: at the end of the input; by exit; with a message; with a stack trace *)
Inductive quit : Type := AtEnd | ByExit | ByMessage | ByCrash.

Inductive origin : Type := FromUser | FromHistory | FromStartup.

(** What can be observed: a command is run in a workspace; an error message; a workspace is opened or closed. *)
Inductive event : Type :=
  Ran (ws c : text) (from : origin) | Reported | OpenedWs (ws : text) | ClosedWs (ws : text).

(** The default workspace's name is '' (object/workspace.py:511). *)
Definition default : text := [].

(** 162-169 [run_startup_scripts]: the commands in order; None: the KillCommandException of 166. *)
Definition startup_commands (scripts : list (option text)) : list (option text) :=
  concat (map (fun s => match s with Some t => map Some (commands_in_script t) | None => [None] end) scripts).

Section Shell.
Variable W : Type.

Record behaviour := mkbehaviour {
  run_cmd : text -> W -> text -> W * ending * option text;
  open_ws : text -> W -> W * opening;
  close_ws : text -> W -> W;
  changed : text -> W -> bool
}.

(** What happens at the prompt: a line is typed; ctrl-C; or something else than the shell changes the world. When there is
    nothing left: ctrl-D. *)
Inductive entry : Type := Typed (c : text) | CtrlC | Outside (f : W -> W).

(** Where the interactive shell is: env_and_main has been called (285); in run_startup_scripts (297), with the commands
    left; at the head of the loop (223); the process has ended. *)
Inductive phase : Type :=
  | Opening (ws : text)
  | Startup (ws : text) (damaged : bool) (todo : list (option text))
  | Prompt (ws : text)
  | Ended (how : quit).

(** [next]: env.next_command. [kept]: main.input, the line that the new main inherits from the old one. *)
Record shell := mkshell {
  where_ : phase; world : W; next : option text; kept : option text; input : list entry; log : list event }.

Variable B : behaviour.

Definition say (s : shell) (evs : list event) : list event := log s ++ evs.

(** 319-329: the handler of ReconfigureException. [close_ws] is main.shutdown(restart=True), 69-86. A new environment has no
    next_command (env.py:282). *)
Definition reconfigure (ws : text) (w : W) (to : option text) (line : option text) (es : list entry) (l : list event) : shell :=
  match to with
  | None => mkshell (Opening ws) (close_ws B ws w) None line es (l ++ [ClosedWs ws])
  | Some ws' => mkshell (Opening ws') (close_ws B ws w) None None es (l ++ [ClosedWs ws])
  end.

(** 285-307, 313: env_and_main. A StartupScriptException from Environment.create is not an Exception, so 288 does not catch
    it, and 299 is about the statements 296-298 only: it leaves main_interactive_run, is printed at 385-386, and
    main_interactive_run starts again, in the default workspace (311). *)
Definition open_step (ws : text) (s : shell) : shell :=
  match open_ws B ws (world s) with
  | (w, Opened damaged scripts) =>
      mkshell (Startup ws damaged (startup_commands scripts)) w None (kept s) (input s) (say s [OpenedWs ws])
  | (w, StartupError) => mkshell (Opening default) w None None (input s) (say s [Reported])
  | (w, Refused) | (w, OpenKillShell) => mkshell (Ended ByMessage) w None None (input s) (say s [Reported])
  | (w, OpenFails) => mkshell (Opening default) w None (kept s) (input s) (say s [Reported])
  | (w, InitFails) => mkshell (Ended ByCrash) w None None (input s) (log s)
  end.

(** 109-126, 162-169: a command of a startup script. A ReconfigureException is raised outside the try statement
    of 314. *)
Definition startup_step (ws : text) (damaged : bool) (todo : list (option text)) (s : shell) : shell :=
  match todo with
  | [] =>
      (* 315-316 *)
      if damaged then reconfigure ws (world s) (Some default) (kept s) (input s) (log s)
      else mkshell (Prompt ws) (world s) (next s) (kept s) (input s) (log s)
  | None :: _ => mkshell (Ended ByMessage) (world s) (next s) (kept s) (input s) (say s [Reported])
  | Some [] :: r => mkshell (Startup ws damaged r) (world s) (next s) (kept s) (input s) (log s)
  | Some c :: r =>
      match run_cmd B ws (world s) c with
      | (w, e, nx) =>
          let next' := match nx with Some _ => nx | None => next s end in
          let l := say s [Ran ws c FromStartup] in
          match e with
          | Done | Empty | Resumed => mkshell (Startup ws damaged r) w next' (kept s) (input s) l
          | Killed => mkshell (Startup ws damaged r) w next' (kept s) (input s) (l ++ [Reported])
          | Exit => mkshell (Ended ByExit) w next' (kept s) (input s) l
          | KillShell => mkshell (Ended ByMessage) w next' (kept s) (input s) (l ++ [Reported])
          | Reconfigure _ | Interrupt | EndOfFile | Crash => mkshell (Ended ByCrash) w next' (kept s) (input s) l
          end
      end
  end.

(** 230-232, 234-236: check_for_config_update, parse_and_run_command(self.input), and the exceptions. *)
Definition command_step (ws c : text) (from : origin) (w : W) (es : list entry) (l : list event) : shell :=
  if changed B ws w then reconfigure ws w None (Some c) es l
  else match c with
  | [] => mkshell (Prompt ws) w None None es l                         (* 110: if text *)
  | _ =>
      match run_cmd B ws w c with
      | (w', e, nx) =>
          let l := l ++ [Ran ws c from] in
          match e with
          | Done | Empty | Resumed => mkshell (Prompt ws) w' nx None es l
          | Killed => mkshell (Prompt ws) w' nx None es (l ++ [Reported])
          | Interrupt => mkshell (Prompt ws) w' nx (Some c) es l
          | Reconfigure to => reconfigure ws w' to (Some c) es l
          | EndOfFile => mkshell (Ended AtEnd) w' nx (Some c) es l      (* 236: taken for ctrl-D *)
          | Exit => mkshell (Ended ByExit) w' nx (Some c) es l
          | KillShell => mkshell (Ended ByMessage) w' nx (Some c) es (l ++ [Reported])
          | Crash => mkshell (Ended ByCrash) w' nx (Some c) es l
          end
      end
  end.

(** 225-228: a recalled command is taken first. The line the new main has inherited is overwritten at 225. *)
Definition prompt_step (ws : text) (s : shell) : shell :=
  match next s with
  | Some c => command_step ws c FromHistory (world s) (input s) (log s)
  | None =>
      match input s with
      | [] => mkshell (Ended AtEnd) (world s) None None [] (log s)
      | CtrlC :: es => mkshell (Prompt ws) (world s) None None es (log s)
      | Outside f :: es => mkshell (Prompt ws) (f (world s)) None None es (log s)
      | Typed c :: es => command_step ws c FromUser (world s) es (log s)
      end
  end.

Definition step (s : shell) : shell :=
  match where_ s with
  | Opening ws => open_step ws s
  | Startup ws d todo => startup_step ws d todo s
  | Prompt ws => prompt_step ws s
  | Ended _ => s
  end.

Fixpoint steps (n : nat) (s : shell) : shell :=
  match n with O => s | S m => steps m (step s) end.

(** 309-313 *)
Definition start (w : W) (es : list entry) : shell := mkshell (Opening default) w None None es [].

(** ** Scripts. Where main_script_run is: before line 335; in run_startup_scripts (337); in the loop (338), with the commands
    left; opening a workspace in the handler (347-348); the process has ended. *)
Inductive sphase : Type :=
  | SOpening
  | SStartup (ws : text) (todo : list (option text))
  | SLoop (ws : text) (todo : list text)
  | SSwitch (ws : text) (todo : list text)
  | SEnded (how : quit).

Record srun := mksrun { swhere : sphase; sworld : W; slog : list event }.

(** 332-348. needs_restart is not looked at. After a switch, run_startup_scripts is not called. A StartupScriptException
    gets to 385, and the script is run again from the beginning. *)
Definition sstep (script : text) (s : srun) : srun :=
  match swhere s with
  | SOpening =>
      match open_ws B default (sworld s) with
      | (w, Opened _ scripts) => mksrun (SStartup default (startup_commands scripts)) w (slog s ++ [OpenedWs default])
      | (w, StartupError) => mksrun SOpening w (slog s ++ [Reported])
      | (w, Refused) | (w, OpenKillShell) => mksrun (SEnded ByMessage) w (slog s ++ [Reported])
      | (w, OpenFails) | (w, InitFails) => mksrun (SEnded ByCrash) w (slog s)
      end
  | SStartup ws [] => mksrun (SLoop ws (commands_in_script script)) (sworld s) (slog s)
  | SStartup ws (None :: _) => mksrun (SEnded ByMessage) (sworld s) (slog s ++ [Reported])
  | SStartup ws (Some [] :: r) => mksrun (SStartup ws r) (sworld s) (slog s)
  | SStartup ws (Some c :: r) =>
      match run_cmd B ws (sworld s) c with
      | (w, e, _) =>
          let l := slog s ++ [Ran ws c FromStartup] in
          match e with
          | Done | Empty | Resumed => mksrun (SStartup ws r) w l
          | Killed => mksrun (SStartup ws r) w (l ++ [Reported])
          | Exit => mksrun (SEnded ByExit) w l
          | KillShell => mksrun (SEnded ByMessage) w (l ++ [Reported])
          | Reconfigure _ | Interrupt | EndOfFile | Crash => mksrun (SEnded ByCrash) w l
          end
      end
  | SLoop ws [] => mksrun (SEnded AtEnd) (sworld s) (slog s)
  | SLoop ws ([] :: r) => mksrun (SLoop ws r) (sworld s) (slog s)
  | SLoop ws (c :: r) =>
      match run_cmd B ws (sworld s) c with
      | (w, e, _) =>
          let l := slog s ++ [Ran ws c FromUser] in
          match e with
          | Done | Empty | Resumed => mksrun (SLoop ws r) w l
          | Killed => mksrun (SLoop ws r) w (l ++ [Reported])
          | Exit => mksrun (SEnded ByExit) w l
          | KillShell => mksrun (SEnded ByMessage) w (l ++ [Reported])
          | Reconfigure (Some ws') => mksrun (SSwitch ws' r) (close_ws B ws w) (l ++ [ClosedWs ws])
          | Reconfigure None => mksrun (SEnded ByCrash) (close_ws B ws w) (l ++ [ClosedWs ws])   (* 345: assert *)
          | Interrupt | EndOfFile | Crash => mksrun (SEnded ByCrash) w l
          end
      end
  | SSwitch ws r =>
      match open_ws B ws (sworld s) with
      | (w, Opened _ _) => mksrun (SLoop ws r) w (slog s ++ [OpenedWs ws])
      | (w, StartupError) => mksrun SOpening w (slog s ++ [Reported])
      | (w, Refused) | (w, OpenKillShell) => mksrun (SEnded ByMessage) w (slog s ++ [Reported])
      | (w, OpenFails) | (w, InitFails) => mksrun (SEnded ByCrash) w (slog s)
      end
  | SEnded _ => s
  end.

Fixpoint ssteps (n : nat) (script : text) (s : srun) : srun :=
  match n with O => s | S m => ssteps m script (sstep script s) end.

Definition sstart (w : W) : srun := mksrun SOpening w [].

End Shell.
