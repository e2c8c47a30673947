(** Where the commands come from when marcel is started: marcel/util.py:288-316 [InputSource], marcel/main.py:217-240 [MainInteractive.run],
    331-334 [main_script_run], 353-365 [read_heredoc, read_script], 367-390 [main] (C86).
    Simplifications: the startup script and the workspace are in Env/Startup.v and Sys/Shell.v; no command restarts the shell or ends it;
    a file can be read, or does not exist; lines end in newlines. *)
From Verif.Syntax Require Export Scripts.
Local Open Scope list_scope.

(** What standard input is: a terminal (what is typed there is not known in advance), a pipe, or something else that can be read to
    its end: a file, a device, a socket *)
Inductive standard_input : Type := Terminal | Pipe (content : text) | Else (content : text).
(** sys.argv without the name of the program *)
Definition arguments := list text.

(** util.py:290-300 *)
Inductive source : Type := Heredoc | Interactive | Script.
Definition input_source (i : standard_input) (args : arguments) : source :=
  match i with
  | Pipe _ => Heredoc
  | _ => match args with [] => Interactive | _ => Script end
  end.

(** What input() returns, one after the other, until EOFError: the lines; nothing follows the last newline *)
Definition input_lines (t : text) : list text := let ls := split_lines t in match last ls [] with [] => removelast ls | _ => ls end.

(** What happens: these commands are given to the parser, and run, in order (main.py:109-126: not the empty ones; 116-117, EmptyCommand: not the
    blank ones); or marcel prompts; or it ends with the message that the script was not found *)
Inductive start : Type := Runs (commands : list text) | Prompts | Not_found (script : text).
(** [files]: the contents of the files *)
Definition main (files : text -> option text) (i : standard_input) (args : arguments) : start :=
  match input_source i args with
  | Interactive =>
      match i with
      | Terminal => Prompts
      | Pipe t | Else t => Runs (filter nonblank (input_lines t))
      end
  | Script =>
      let path := hd [] args in
      match files path with
      | Some t => Runs (filter nonblank (commands_in_script t))
      | None => Not_found path
      end
  | Heredoc =>
      match i with
      | Terminal => Prompts
      | Pipe t | Else t => Runs (filter nonblank (commands_in_script (read_heredoc t)))
      end
  end.
