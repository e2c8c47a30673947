(** The output of an external command: NonInteractive and ProcessOutputHandler (marcel/op/bash.py:151-198, 232-275).

    The external command (and whatever it leaves behind in the background) and the two threads of marcel, the one that reads
    the command's output and the one that sends it input, take steps in any order.  Simplifications: texts are what is
    left after decoding and the translation of line ends (universal_newlines, 184); the operators that receive the output
    do not fail; the locks (226, 246) only delay steps. *)
From Coq Require Export Ascii List Bool Arith Lia.
Export ListNotations.
Local Open Scope list_scope.

Definition text := list ascii.
Definition nl : ascii := "010"%char.

(** Standard output, standard error *)
Inductive fd : Type := StdOut | StdErr.
Definition fd_eqb (a b : fd) : bool := match a, b with StdOut, StdOut | StdErr, StdErr => true | _, _ => false end.

(** A pipe: what is in it, whether anyone can still write to it; and the stream that reads it: what it has already taken out of
    the pipe, whether it is still registered (242-243, 255) *)
Record stream := mkstream { in_pipe : text; open : bool; buffered : text; registered : bool }.

(** Where the reading thread is: at select (245); past it, with the streams that were ready (248); in the loop over those
    (250-); at the end (264) *)
Inductive phase : Type := Select | Ready (l : list fd) | Serve (l : list fd) | Done.

(** Where the other thread is: passing input on (165-169), waiting for the reading thread (173), at the end (117) *)
Inductive feeder : Type := Feeding | Joining | Flushed.

Record state := mkstate { streams : fd -> stream; exited : bool; reader : phase; main : feeder }.

Definition set_stream (s : state) (i : fd) (x : stream) : state :=
  mkstate (fun j => if fd_eqb i j then x else streams s j) (exited s) (reader s) (main s).
Definition set_reader (s : state) (p : phase) : state := mkstate (streams s) (exited s) p (main s).
Definition set_exited (s : state) : state := mkstate (streams s) true (reader s) (main s).
Definition set_main (s : state) (m : feeder) : state := mkstate (streams s) (exited s) (reader s) m.

(** What can be observed *)
Inductive event : Type :=
| Write (i : fd) (t : text)        (* the command, or what it started, writes *)
| Close (i : fd)                   (* no one has the pipe open for writing any more *)
| Exit                             (* the command has ended (process.poll() is not None) *)
| Input (x : text)                 (* a line for the command *)
| Eof                              (* there is no more input *)
| Output (i : fd) (l : text)       (* sent on: the value [l], or Error(l) (258-261) *)
| End                              (* propagate_flush *)
| Internal.

(** The first line of a text, if it has a line end (268-271: the line end is dropped), and the rest *)
Fixpoint first_line (t : text) : option (text * text) :=
  match t with
  | [] => None
  | c :: r => if (c =? nl)%char then Some ([], r)
              else match first_line r with Some (l, u) => Some (c :: l, u) | None => None end
  end.

(** select reports a stream if there is something in its pipe, or no one is left to write to it; what the stream has buffered
    does not count *)
Definition ready (x : stream) : bool := registered x && (negb (open x) || match in_pipe x with [] => false | _ => true end).

Inductive step : state -> event -> state -> Prop :=
(* the command *)
| step_write : forall s i t, open (streams s i) = true -> t <> [] ->
    step s (Write i t)
      (set_stream s i (let x := streams s i in mkstream (in_pipe x ++ t) true (buffered x) (registered x)))
| step_close : forall s i, open (streams s i) = true ->
    step s (Close i)
      (set_stream s i (let x := streams s i in mkstream (in_pipe x) false (buffered x) (registered x)))
| step_exit : forall s, exited s = false -> step s Exit (set_exited s)
(* select (245): it returns the streams that are ready, in some order; if none is, it gives up after a time *)
| step_select : forall s l, reader s = Select -> NoDup l ->
    (forall i, In i l <-> ready (streams s i) = true) ->
    step s Internal (set_reader s (Ready l))
(* 248-249 *)
| step_break : forall s, reader s = Ready [] -> exited s = true -> step s Internal (set_reader s Done)
| step_again : forall s, reader s = Ready [] -> exited s = false -> step s Internal (set_reader s Select)
| step_serve : forall s i l, reader s = Ready (i :: l) -> step s Internal (set_reader s (Serve (i :: l)))
| step_served : forall s, reader s = Serve [] -> step s Internal (set_reader s Select)
(* readline (252): a line that is buffered; or more from the pipe; or, at its end, what is left *)
| step_line : forall s i l t u, reader s = Serve (i :: l) ->
    first_line (buffered (streams s i)) = Some (t, u) ->
    step s (Output i t)
      (set_reader (set_stream s i (let x := streams s i in mkstream (in_pipe x) (open x) u (registered x))) (Serve l))
| step_fill : forall s i l n, reader s = Serve (i :: l) ->
    first_line (buffered (streams s i)) = None -> in_pipe (streams s i) <> [] -> 0 < n ->
    step s Internal
      (set_stream s i (let x := streams s i in
                       mkstream (skipn n (in_pipe x)) (open x) (buffered x ++ firstn n (in_pipe x)) (registered x)))
| step_last : forall s i l, reader s = Serve (i :: l) ->
    first_line (buffered (streams s i)) = None -> in_pipe (streams s i) = [] -> open (streams s i) = false ->
    buffered (streams s i) <> [] ->
    step s (Output i (buffered (streams s i)))
      (set_reader (set_stream s i (let x := streams s i in mkstream [] false [] (registered x))) (Serve l))
| step_unregister : forall s i l, reader s = Serve (i :: l) ->   (* 254-255 *)
    buffered (streams s i) = [] -> in_pipe (streams s i) = [] -> open (streams s i) = false ->
    step s Internal
      (set_reader (set_stream s i (mkstream [] false [] false)) (Serve l))
(* the other thread: 162-173, 115-117 *)
| step_input : forall s x, main s = Feeding -> step s (Input x) s
| step_eof : forall s, main s = Feeding -> step s Eof (set_main s Joining)
| step_end : forall s, main s = Joining -> reader s = Done -> step s End (set_main s Flushed).

(** When the process has been started (180-193) *)
Definition start : state := mkstate (fun _ => mkstream [] true [] true) false Select Feeding.

(** The executions in which each step satisfies [ok] *)
Inductive exec (ok : state -> event -> Prop) : list event -> state -> Prop :=
| exec_start : exec ok [] start
| exec_step : forall tr s e s', exec ok tr s -> ok s e -> step s e s' -> exec ok (tr ++ [e]) s'.

(** ** The operator's own state before that (151-173): whether the process has been started.  [None]: AttributeError *)
Definition op_receive (started : bool) : bool := true.      (* 161-162, ensure_command_running *)
Definition op_flush (started : bool) : option unit := if started then Some tt else None.   (* 172: self.process.stdin *)
Definition op_run (received : nat) : option unit := op_flush (Nat.iter received op_receive false).
