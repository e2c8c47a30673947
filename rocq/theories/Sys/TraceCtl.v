(** The trace command and where trace output goes: marcel/env.py:345-403 (class Trace),
    marcel/op/trace.py:87-111 (Trace.run), env.py:87, 102-124 (Environment.__init__, __getstate__,
    __setstate__), job.py:99-104, 168-186 (Job.__init__, start_process), main.py:287, 310-325.

    marcel runs some commands in its own process (assignments, cd, trace itself) and every other
    command in a child process, a job, to which the environment, and with it the tracer, is pickled. *)
From Coq Require Export List String Bool Lia.
Export ListNotations.
Set Implicit Arguments.
Local Open Scope list_scope.

Definition path := list string.                            (** of an absolute path *)
Inductive filename := Absolute (p : path) | Relative (p : path).
(** open: a relative filename is about the process's current directory *)
Definition resolve (cwd : path) (f : filename) : path := match f with Absolute p => p | Relative p => cwd ++ p end.

Inductive target := To_stdout | To_file (f : filename).    (** Trace.target: STDOUT_MARKER or the filename as typed *)
Inductive sink := Stdout | File (p : path).                (** Trace.tracefile: an open file *)
Record tracer := mktracer { t_target : option target; t_file : option sink }.
(** Trace.__init__ (env.py:351-354) *)
Definition new_tracer : tracer := mktracer None None.

Inductive command :=
| C_on                    (** trace -1 *)
| C_off                   (** trace -0 *)
| C_file (f : filename)   (** trace -f FILENAME *)
| C_status                (** trace *)
| C_cd (d : path)
| C_main                  (** any other command that runs in marcel's own process *)
| C_job                   (** any command that runs as a job *)
| C_workspace.            (** opening or closing a workspace *)

Inductive saying := Tracing_is_off | Tracing_to_stdout.
Inductive effect :=
| Nothing
| Refused                          (** KillCommandException: Unable to start tracing *)
| Says (s : option saying)         (** what trace prints *)
| Traced (s : option sink)         (** the command is run, its trace going to the sink, if any *)
| Child_died.                      (** unpickling the environment raised in the child process *)

Section Filesystem.
Variable writable : path -> bool.     (** open(path, 'a') succeeds *)

(** Trace.print_status (env.py:399-403): there is no case for a file *)
Definition print_status (t : tracer) : option saying :=
  match t_file t with
  | None => Some Tracing_is_off
  | Some Stdout => Some Tracing_to_stdout
  | Some (File _) => None
  end.

(** Trace.__setstate__ in the child (env.py:360-365); None: open raised *)
Definition set_state (cwd : path) (tgt : option target) : option (option sink) :=
  match tgt with
  | None => Some None
  | Some To_stdout => Some (Some Stdout)
  | Some (To_file f) => if writable (resolve cwd f) then Some (Some (File (resolve cwd f))) else None
  end.

Definition run (c : command) (s : tracer * path) : (tracer * path) * effect :=
  let '(t, cwd) := s in
  match c with
  | C_on => (mktracer (Some To_stdout) (Some Stdout), cwd, Nothing)                       (* env.py:370-374 *)
  | C_off => (mktracer None None, cwd, Nothing)                                           (* env.py:384-389 *)
  | C_file f =>                                                                           (* env.py:375-382 *)
    if writable (resolve cwd f) then (mktracer (Some (To_file f)) (Some (File (resolve cwd f))), cwd, Nothing)
    else (t, cwd, Refused)
  | C_status => (t, cwd, Says (print_status t))
  | C_cd d => (t, d, Traced (t_file t))                                                   (* directorystate.py:45: os.chdir *)
  | C_main => (t, cwd, Traced (t_file t))
  | C_job =>                                                                              (* Trace.__getstate__, env.py:356-358 *)
    (mktracer (t_target t) None, cwd,
     match set_state cwd (t_target t) with Some f => Traced f | None => Child_died end)
  | C_workspace => (t, cwd, Nothing)                                                      (* main.py:287, 320: the same Trace object *)
  end.

Fixpoint runs (h : list command) (s : tracer * path) : tracer * path :=
  match h with
  | [] => s
  | c :: h' => runs h' (fst (run c s))
  end.
(** What command c does after the commands h, in a shell started in directory d. *)
Definition after (d : path) (h : list command) (c : command) : effect := snd (run c (runs h (new_tracer, d))).
End Filesystem.
