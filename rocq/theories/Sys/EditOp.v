(* Editing: the operator edit (marcel/op/edit.py:57-101), the editor (marcel/runeditor.py:23-55), the locations of
   startup scripts (marcel/locations.py:86-94, 108-109, 178-180), and how the reader hands an edit command on
   (marcel/reader.py:84-151, whose choice of a command is modelled in History.v).

   Simplifications: the value of EDITOR is a string; the editor ends normally; bash is installed; the arguments of edit
   are separated by white space and contain no character that marcel's lexer treats specially. *)
From Coq Require Import Ascii String List Bool Arith ZArith.
From Verif.Sys Require Import Csv History.
From Verif.Syntax Require Args ArgsTable.
Import ListNotations.
Open Scope list_scope.

(* What the command depends on *)
Record site := mksite {
  var_editor : option text;       (* the marcel variable EDITOR *)
  os_editor : option text;        (* the variable EDITOR of the process's environment *)
  config_base : text;             (* the directory of configurations, locations.py:66-69 *)
  here : option text;             (* the current workspace, None: the default workspace *)
  known : text -> bool            (* there is a workspace of that name *)
}.

(* What a command leads to *)
Inductive effect :=
| Runs (command : text)           (* bash runs the command *)
| Told                            (* KillCommandException: the user is told what is wrong *)
| Crashes.                        (* another exception: TypeError, AssertionError *)

(* find_editor, runeditor.py:23-30 *)
Definition find_editor (s : site) : option text :=
  match var_editor s with
  | Some e => Some e
  | None => os_editor s
  end.

(* run_editor, runeditor.py:32-39: f'{editor} {file}' *)
Definition run_editor (s : site) (file : text) : effect :=
  match find_editor s with
  | None => Told
  | Some e => Runs (e ++ txt " " ++ file)
  end.

(* config_ws_startup, locations.py:86-94, 108-109; workspace_dir_name, 178-180 *)
Definition workspace_dir_name (ws : option text) : text :=
  match ws with None => txt "__DEFAULT__" | Some n => n end.
Definition config_ws_startup (s : site) (ws : option text) : text :=
  config_base s ++ txt "/" ++ txt "marcel" ++ txt "/" ++ txt "workspace" ++ txt "/" ++ workspace_dir_name ws ++
  txt "/" ++ txt "startup.py".

(* Workspace.exists has no parameter (workspace.py:234): exists(env), edit.py:90, raises TypeError, whatever
   there is.  None: it raises *)
Definition exists_env (s : site) (name : text) : option bool := None.

(* Edit.setup and run, edit.py:81-92; startup and command: the attributes, None unless set by the parser of arguments *)
Definition edit_run (s : site) (startup command : Args.obj) : effect :=
  match command with
  | Args.ONone =>
      let ws_name := match startup with Args.OStr n => Some n | _ => None end in
      match ws_name with
      | None => run_editor s (config_ws_startup s (here s))
      | Some n => match exists_env s n with
                  | None => Crashes
                  | Some false => Told
                  | Some true => run_editor s (config_ws_startup s (Some n))
                  end
      end
  | _ => Crashes                  (* the assertion of setup *)
  end.

(* EditArgsParser, edit.py:57-64: the value of startup is not converted; command: str_to_int, argsparser.py:176-184 *)
Definition conv (name : text) (o : Args.obj) : option Args.obj :=
  if text_dec name (txt "command") then
    match o with
    | Args.OStr t => option_map Args.OInt (parse_int t)
    | Args.OInt n => Some (Args.OInt n)
    | _ => None
    end
  else Some o.
Definition attribute (name : string) (m : list (text * Args.obj)) : Args.obj :=
  match Args.dget (txt name) m with Some o => o | None => Args.ONone end.
(* The operator, with its arguments *)
Definition edit_op (s : site) (args : list text) : effect :=
  match Args.parse conv ArgsTable.op_edit (map Args.OStr args) with
  | None => Told
  | Some m => edit_run s (attribute "startup" m) (attribute "command" m)
  end.

(* handle_edit_and_run with the editor of the site, and the number of temporary files that are left: edit_text creates
   a file before it looks for an editor, and removes it after it has run one (runeditor.py:42-51). *)
Definition handle_here (s : site) (editor : text -> text) (typed : text) (w : world) : option text * nat :=
  match find_editor s with
  | Some _ => (handle editor typed w, 0)
  | None =>
      match handle (fun t => t) typed w with
      | Some r => if starts_with "edit" (strip typed) then (None, 1) else (Some r, 0)
      | None => (None, 0)
      end
  end.

(* Enter is typed (reader.py:143-151) after a line that starts with the operator edit: the command that is
   executed in its place, or what the operator does; and the number of temporary files that are left *)
Inductive result := Executes (command : text) | Does (e : effect).
Definition enter (s : site) (editor : text -> text) (typed : text) (w : world) : result * nat :=
  match handle_here s editor typed w with
  | (Some (c :: r), k) => (Executes (c :: r), k)
  | (_, k) => (Does (edit_op s (words [] (skipn 4 (strip typed)))), k)
  end.

(* bash: the words of a command without characters that bash treats specially (None: there are some) *)
Definition plain_char (c : ascii) : bool :=
  negb (existsb (Ascii.eqb c) (list_ascii_of_string "|&;()<>$`\'*?[]#~=%!{}^" ++ [QUOTE; LF; CR])).
Definition bash_words (t : text) : option (list text) := if forallb plain_char t then Some (words [] t) else None.
