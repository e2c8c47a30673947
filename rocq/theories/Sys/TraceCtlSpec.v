(** What the trace command is documented to do (op/trace.py:22-47): with -1 or -f, trace output is written to stdout, or
    to the file; with -0 it is not written; without arguments, trace describes whether tracing is enabled and, if so,
    where trace output is being written. *)
From Verif.Sys Require Export TraceCtl.
Set Implicit Arguments.
Local Open Scope list_scope.

(** Where the user has asked trace output to go, after the commands h in a shell started in directory d. *)
Fixpoint asked (writable : path -> bool) (h : list command) (d : path) (so_far : option sink) : option sink :=
  match h with
  | [] => so_far
  | C_on :: h' => asked writable h' d (Some Stdout)
  | C_off :: h' => asked writable h' d None
  | C_file f :: h' =>
      asked writable h' d (if writable (resolve d f) then Some (File (resolve d f)) else so_far)
  | C_cd d' :: h' => asked writable h' d' so_far
  | _ :: h' => asked writable h' d so_far
  end.

Definition is_setting (c : command) : bool := match c with C_on | C_off | C_file _ => true | _ => false end.
Definition is_job (c : command) : bool := match c with C_job => true | _ => false end.
Definition own_process (c : command) : bool := match c with C_main | C_cd _ => true | _ => false end.
(** No job has been started since the last trace -1, trace -0 or trace -f that was not refused *)
Definition no_job_since (w : path -> bool) (d : path) (h : list command) : Prop :=
  exists h1 h2, h = h1 ++ h2 /\ forallb (fun c => negb (is_job c)) h2 = true /\
  (h1 = [] \/ exists h0 c, h1 = h0 ++ [c] /\ (c = C_on \/ c = C_off \/ exists f, c = C_file f /\ after w d h0 c <> Refused)).
Definition absolute (c : command) : bool := match c with C_file (Relative _) => false | _ => true end.
