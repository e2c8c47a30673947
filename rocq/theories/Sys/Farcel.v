(** The process that runs a pipeline on another host (or, for sudo, as another user): bin/farcel.py, its two threads, and
    the processes that the pipeline starts.  What the client makes of the output is in Remote.v.

    Simplifications:
    - What the pipeline does is given: a sequence, perhaps without end, of values that it outputs and of processes that it starts.
      An exception of the pipeline is a value it outputs (an Error, farcel.py:108-112), and the last one.
    - Processes other than farcel fork and end whenever they like.  A process identifier is used once (psutil compares the
      times at which processes started).  A signal that is not ignored ends the process at once.
    - The trace file of farcel (TRACE) is not modelled, nor are exceptions from writing to it.
    - Output is buffered by farcel until it ends; [out] is what has been given to the buffer. *)
From Coq Require Export List Bool Arith Lia.
Export ListNotations.

Section Values.
Context {V : Type}.

(** ** Processes *)
(** A process: its parent, whether the standard output of farcel is open in it, the signals that it ignores, and whether
    farcel may send it signals at all. *)
Record process := mkprocess { pid : nat; parent : nat; open_output : bool; ignores : nat -> bool; forbidden : bool }.
Definition table := list process.
(** farcel itself (which is not in the table), and the process that orphans are given to *)
Definition me : nat := 0.
Definition init : nat := 1.
Definition sigterm : nat := 15.
Definition lookup (t : table) (p : nat) : option process := find (fun q => Nat.eqb (pid q) p) t.
(** The end of a process: its children are given to init. *)
Definition ends (p : nat) (t : table) : table :=
  map (fun q => if Nat.eqb (parent q) p then mkprocess (pid q) init (open_output q) (ignores q) (forbidden q) else q)
      (filter (fun q => negb (Nat.eqb (pid q) p)) t).
(** psutil.Process.children(recursive=True), farcel.py:127: those whose parents are in the table, up to farcel. *)
Inductive descendant (t : table) : nat -> Prop :=
| child : forall q, In q t -> parent q = me -> descendant t (pid q)
| grandchild : forall q, In q t -> descendant t (parent q) -> descendant t (pid q).

(** ** The pipeline, and the input of farcel *)
Inductive act := Output (v : V) | Start (has_output : bool) (deaf : nat -> bool) (foreign : bool).
(** Act [n] of the pipeline; None: the pipeline is over. *)
Definition pipeline := nat -> option act.
(** What input.load() yields: something that was pickled, or an exception other than EOFError; at the end of the list, EOFError. *)
Inductive object := Pipeline (p : pipeline) | Signal (s : nat) | Other.
Inductive item := Item (o : object) | Garbage.

(** farcel.py:147-172, the first part of main: the pipeline to run, if it gets that far, and what is left of the input.
    [env_ok]: Environment.create succeeds (161-162). *)
Definition receive (env_ok : bool) (input : list item) : option pipeline * list item :=
  match input with
  | [] => (None, [])
  | Garbage :: i => (None, i)
  | Item _ :: i =>                                             (* the version of Python *)
      match i with
      | [] => (None, [])
      | Garbage :: i => (None, i)
      | Item _ :: i =>                                         (* api or script *)
          match i with
          | [] => (None, [])
          | Garbage :: i => (None, i)
          | Item (Pipeline p) :: i => (if env_ok then Some p else None, i)
          | Item _ :: i => (None, i)                           (* assert *)
          end
      end
  end.

(** Where the main thread is: before the first try; before the second one; waiting for the pipeline (179-181); sending the signal to the
    rest of the descendants found (127-129); at the end, when Python waits for the thread that runs the pipeline; gone. *)
Inductive phase := Opening (input : list item) | Listening (input : list item) | Waiting | Killing (s : nat) (rest : list nat) | Closing | Ended.
(** [runner]: what it runs, and how far it is.  [told]: an exception was left to Python, which prints it on standard error. *)
Record state := mkstate { at_ : phase; runner : option (pipeline * nat); out : list V; told : bool; procs : table; next : nat }.
Definition start (input : list item) : state := mkstate (Opening input) None [] false [] 2.
(** The thread has come to its end (is_alive is false). *)
Definition over (r : option (pipeline * nat)) : Prop := match r with None => True | Some (p, n) => p n = None end.

Inductive actor := Main | Runner | Forks (p q : nat) | Exits (p : nat).

(** One step.  [env_ok] as above. *)
Inductive step (env_ok : bool) : state -> actor -> state -> Prop :=
(** 148-172 *)
| s_open : forall i r o e t n p rest, receive env_ok i = (p, rest) ->
    step env_ok (mkstate (Opening i) r o e t n) Main (mkstate (Listening rest) (option_map (fun p => (p, 0)) p) o e t n)
(** 174-176, kill_descendents (121-140): a signal; the descendants at this time *)
| s_signal : forall s rest r o e t n l, NoDup l -> (forall p, In p l <-> descendant t p) ->
    step env_ok (mkstate (Listening (Item (Signal s) :: rest)) r o e t n) Main (mkstate (Killing s l) r o e t n)
(** 174-176: something that is no signal: an exception (133-136) if there is a process to send it to, and nothing done if not *)
| s_nonsense : forall x rest r o e t n, (forall s, x <> Signal s) ->
    step env_ok (mkstate (Listening (Item x :: rest)) r o e t n) Main (mkstate Closing r o e t n)
(** 174: an exception that is not EOFError is not caught *)
| s_garbage : forall rest r o e t n,
    step env_ok (mkstate (Listening (Garbage :: rest)) r o e t n) Main (mkstate Closing r o true t n)
(** 177-179: EOFError, and pipeline_runner has no value: NameError *)
| s_eof_nothing : forall o e t n,
    step env_ok (mkstate (Listening []) None o e t n) Main (mkstate Closing None o true t n)
(** 177-179 *)
| s_eof : forall p k o e t n,
    step env_ok (mkstate (Listening []) (Some (p, k)) o e t n) Main (mkstate Waiting (Some (p, k)) o e t n)
(** 179-183: the pipeline is over; kill_descendents *)
| s_kill : forall r o e t n l, over r -> NoDup l -> (forall p, In p l <-> descendant t p) ->
    step env_ok (mkstate Waiting r o e t n) Main (mkstate (Killing sigterm l) r o e t n)
(** 127-129: the process takes the signal, or ignores it *)
| s_sent : forall s p l r o e t n q, lookup t p = Some q -> forbidden q = false ->
    step env_ok (mkstate (Killing s (p :: l)) r o e t n) Main
                (mkstate (Killing s l) r o e (if ignores q s then t else ends p t) n)
(** 127-136: NoSuchProcess or AccessDenied, which ends the loop *)
| s_not_sent : forall s p l r o e t n, match lookup t p with None => True | Some q => forbidden q = true end ->
    step env_ok (mkstate (Killing s (p :: l)) r o e t n) Main (mkstate Closing r o e t n)
| s_killed : forall s r o e t n,
    step env_ok (mkstate (Killing s []) r o e t n) Main (mkstate Closing r o e t n)
(** The end of the interpreter, which waits for threads that are not daemons *)
| s_close : forall r o e t n, over r ->
    step env_ok (mkstate Closing r o e t n) Main (mkstate Ended r o e t n)
(** PipelineRunner.run, 100-113, and PickleOutput.receive, 76-78 *)
| s_output : forall a p k v o e t n, p k = Some (Output v) ->
    step env_ok (mkstate a (Some (p, k)) o e t n) Runner (mkstate a (Some (p, S k)) (o ++ [v]) e t n)
| s_start : forall a p k b d f o e t n, p k = Some (Start b d f) ->
    step env_ok (mkstate a (Some (p, k)) o e t n) Runner (mkstate a (Some (p, S k)) o e (t ++ [mkprocess n me b d f]) (S n))
(** Other processes *)
| s_fork : forall a r o e t n q b d f, In q t -> (b = true -> open_output q = true) ->
    step env_ok (mkstate a r o e t n) (Forks (pid q) n) (mkstate a r o e (t ++ [mkprocess n (pid q) b d f]) (S n))
| s_exit : forall a r o e t n q, In q t ->
    step env_ok (mkstate a r o e t n) (Exits (pid q)) (mkstate a r o e (ends (pid q) t) n).

(** Executions, with who took the steps *)
Inductive runs (env_ok : bool) : state -> list actor -> state -> Prop :=
| r_here : forall s, runs env_ok s [] s
| r_step : forall s a s1 tr s2, step env_ok s a s1 -> runs env_ok s1 tr s2 -> runs env_ok s (a :: tr) s2.
End Values.
Arguments act : clear implicits. Arguments pipeline : clear implicits. Arguments object : clear implicits.
Arguments item : clear implicits. Arguments state : clear implicits. Arguments phase : clear implicits.
