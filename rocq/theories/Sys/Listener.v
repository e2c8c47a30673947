(** The thread that receives the variables changed by jobs (job.py), beside the main thread and the jobs. *)
From Coq Require Export List String Bool Arith Lia.
From Verif.Py Require Export Val.
Import ListNotations.
Local Open Scope list_scope.

(** What a command changes: object/workspace.py:168-179 [changes].  PWD is never among them: directorystate.py:50 assigns it with
    assign_permanent, which is not recorded, so that main.py:244-250 never finds it. *)
Definition changes := list (string * val).
Definition vars := string -> option val.
Definition assign (v : string) (x : val) (e : vars) : vars := fun w => if String.eqb w v then Some x else e w.
(** main.py:251-252 *)
Fixpoint assign_all (c : changes) (e : vars) : vars :=
  match c with [] => e | (v, x) :: c => assign_all c (assign v x e) end.

(** What a job sends when its command is done (job.py:63-85): the changes, or something that dill.loads cannot read; nothing if the command
    failed. *)
Inductive message := Good (c : changes) | Unloadable.

(** A job: [Fresh]: start_process has made its pipe; [Busy]: the command is running, or its message is being written; [Wrote]: all written;
    [Closed]: writer.close() (85); [Gone]: the process has ended *)
Inductive phase := Fresh | Busy (r : option message) | Wrote | Closed | Gone.
(** The contents of its pipe: [Part]: a part of the message; [Torn]: a part of the message, and the rest will never come *)
Inductive content := Void | Part (m : message) | Torn | Whole (m : message).
Record job := mkj { ph : phase; pipe : content }.

(** The main thread.  [Prompt]: main.py:219-239, ready for a command; [Setting]: assigning, by a command that runs in the main process;
    [Acquire], [Append], [Release]: job.py:211-215 [add_listener]; [Start]: 181 process.start(); [Waiting]: 292-299
    [wait_for_idle_foreground]; [Exited]: 258-264 [shutdown] *)
Inductive mpc :=
| Prompt
| Setting (c : changes)
| Acquire (j : nat) (f : vars -> option message)
| Append (j : nat) (f : vars -> option message)
| Release (j : nat) (f : vars -> option message)
| Start (j : nat) (f : vars -> option message)
| Waiting (j : nat)
| Exited.

(** The listener, job.py:217-239.  [Top]: 220; [Prune]: 222-224; [Look]: 226-231; [Asleep]: in wait(1) (227); [Unlock]: 231; [Poll]: 233
    mpc.wait; [Each]: 233-239, the pipes to be read and those at their end; [Apply]: 237, child_completion_handler; [Stopped]: 229, which
    returns without releasing the lock; [Dead]: an exception other than EOFError *)
Inductive lpc :=
| Top (gone : list nat)
| Prune (gone : list nat)
| Look
| Asleep
| Unlock (seen : list nat)
| Poll (seen : list nat)
| Each (todo gone : list nat)
| Apply (j : nat) (c : changes) (todo gone : list nat)
| Stopped
| Dead.

Inductive who := MainThread | ListenerThread | Process (j : nat).

Record state := mks {
  env : vars;
  lock : option who;
  listeners : list nat;
  jobs : nat -> job;
  next : nat;
  main : mpc;
  lst : lpc;
  stop : bool;
  saved : option vars }.

Definition set_job (js : nat -> job) (j : nat) (x : job) : nat -> job := fun i => if Nat.eqb i j then x else js i.

(** What can be seen: a command entered, a job whose message is in its pipe, an assignment by the listener, all changes of a job applied,
    the shell ready for the next command, the shell ended *)
Inductive event :=
| EnteredMain (f : vars -> changes)
| EnteredJob (j : nat) (f : vars -> option message)
| Forked (j : nat) (r : option message)
| Written (j : nat)
| SetVar (v : string) (x : val)
| Handled (j : nat)
| Ready
| Ended
| Tau.

(** The variables that the parent can assign: object/workspace.py:133-140 *)
Definition settable_t := string -> val -> bool.

(** multiprocessing.connection.wait: a pipe that has something, or is at its end *)
Definition ready (x : job) : bool :=
  match pipe x with
  | Void => match ph x with Closed | Gone => true | _ => false end
  | _ => true
  end.

(** job.py:222-223: list.remove *)
Fixpoint remove_one (j : nat) (l : list nat) : list nat :=
  match l with [] => [] | i :: l => if Nat.eqb i j then l else i :: remove_one j l end.
Definition remove_each (gone l : list nat) : list nat := fold_left (fun l j => remove_one j l) gone l.

Definition upd_main (s : state) (m : mpc) : state := mks (env s) (lock s) (listeners s) (jobs s) (next s) m (lst s) (stop s) (saved s).
Definition upd_lst (s : state) (l : lpc) : state := mks (env s) (lock s) (listeners s) (jobs s) (next s) (main s) l (stop s) (saved s).
Definition upd_lock (s : state) (k : option who) : state := mks (env s) k (listeners s) (jobs s) (next s) (main s) (lst s) (stop s) (saved s).
Definition upd_env (s : state) (e : vars) : state := mks e (lock s) (listeners s) (jobs s) (next s) (main s) (lst s) (stop s) (saved s).
Definition upd_job (s : state) (j : nat) (x : job) : state :=
  mks (env s) (lock s) (listeners s) (set_job (jobs s) j x) (next s) (main s) (lst s) (stop s) (saved s).
Definition upd_listeners (s : state) (l : list nat) : state := mks (env s) (lock s) l (jobs s) (next s) (main s) (lst s) (stop s) (saved s).

(** A process that is killed: its message is torn if it was being written *)
Definition killed (x : job) : job :=
  match ph x with
  | Fresh | Gone => x
  | _ => mkj Gone (match pipe x with Part _ => Torn | p => p end)
  end.

(** The main thread.  A command that runs in the main process assigns one variable after the other. *)
Inductive main_step : state -> event -> state -> Prop :=
| m_enter : forall s f, main s = Prompt -> main_step s (EnteredMain f) (upd_main s (Setting (f (env s))))
| m_set : forall s v x c, main s = Setting ((v, x) :: c) -> main_step s Tau (upd_env (upd_main s (Setting c)) (assign v x (env s)))
| m_set_done : forall s, main s = Setting [] -> main_step s Ready (upd_main s Prompt)
(** main.py:211-215 *)
| m_job : forall s f, main s = Prompt ->
    main_step s (EnteredJob (next s) f)
      (mks (env s) (lock s) (listeners s) (set_job (jobs s) (next s) (mkj Fresh Void)) (S (next s)) (Acquire (next s) f) (lst s) (stop s) (saved s))
| m_acquire : forall s j f, main s = Acquire j f -> lock s = None -> main_step s Tau (upd_lock (upd_main s (Append j f)) (Some MainThread))
| m_append : forall s j f, main s = Append j f -> main_step s Tau (upd_listeners (upd_main s (Release j f)) (listeners s ++ [j]))
| m_release : forall s j f, main s = Release j f -> main_step s Tau (upd_lock (upd_main s (Start j f)) None)
(** The child has the variables of the parent at that moment *)
| m_start : forall s j f, main s = Start j f -> main_step s (Forked j (f (env s))) (upd_job (upd_main s (Waiting j)) j (mkj (Busy (f (env s))) Void))
| m_idle : forall s j, main s = Waiting j -> ph (jobs s j) = Gone -> main_step s Ready (upd_main s Prompt)
(** ctrl-C (301-307), ctrl-Z (309-319) while waiting for the job in the foreground *)
| m_ctrl_c : forall s j, main s = Waiting j -> main_step s Tau (upd_job s j (killed (jobs s j)))
| m_ctrl_z : forall s j, main s = Waiting j -> main_step s Ready (upd_main s Prompt)
(** main.py:69-86 [shutdown]: the jobs are killed, the listener is told to stop, and the workspace is saved *)
| m_exit : forall s, main s = Prompt ->
    main_step s Ended (mks (env s) (lock s) (listeners s) (fun j => killed (jobs s j)) (next s) Exited (lst s) true (Some (env s))).

(** A job.  Its message may be larger than what a pipe holds, so that it is written in parts. *)
Inductive job_step (j : nat) : state -> event -> state -> Prop :=
| j_begin : forall s m, jobs s j = mkj (Busy (Some m)) Void -> job_step j s Tau (upd_job s j (mkj (Busy (Some m)) (Part m)))
| j_written : forall s m, jobs s j = mkj (Busy (Some m)) (Part m) -> job_step j s (Written j) (upd_job s j (mkj Wrote (Whole m)))
| j_nothing : forall s, jobs s j = mkj (Busy None) Void -> job_step j s Tau (upd_job s j (mkj Wrote Void))
| j_close : forall s p, jobs s j = mkj Wrote p -> job_step j s Tau (upd_job s j (mkj Closed p))
| j_exit : forall s p, jobs s j = mkj Closed p -> job_step j s Tau (upd_job s j (mkj Gone p))
| j_killed : forall s, job_step j s Tau (upd_job s j (killed (jobs s j))).

Inductive listener_step (settable : settable_t) : state -> event -> state -> Prop :=
| l_acquire : forall s gone, lst s = Top gone -> lock s = None -> listener_step settable s Tau (upd_lock (upd_lst s (Prune gone)) (Some ListenerThread))
| l_prune : forall s gone, lst s = Prune gone -> listener_step settable s Tau (upd_listeners (upd_lst s Look) (remove_each gone (listeners s)))
| l_stop : forall s, lst s = Look -> stop s = true -> listener_step settable s Tau (upd_lst s Stopped)
| l_sleep : forall s, lst s = Look -> stop s = false -> listeners s = [] -> listener_step settable s Tau (upd_lock (upd_lst s Asleep) None)
(** notified, or a second has passed *)
| l_wake : forall s, lst s = Asleep -> lock s = None -> listener_step settable s Tau (upd_lock (upd_lst s Look) (Some ListenerThread))
| l_look : forall s, lst s = Look -> stop s = false -> listeners s <> [] -> listener_step settable s Tau (upd_lst s (Unlock (listeners s)))
| l_unlock : forall s seen, lst s = Unlock seen -> listener_step settable s Tau (upd_lock (upd_lst s (Poll seen)) None)
(** the pipes that are ready, in any order; none if the time is up *)
| l_poll : forall s seen todo, lst s = Poll seen -> (forall j, In j todo <-> In j seen /\ ready (jobs s j) = true) -> NoDup todo ->
    listener_step settable s Tau (upd_lst s (Each todo []))
(** recv blocks while only a part of the message is there *)
| l_good : forall s j c todo gone, lst s = Each (j :: todo) gone -> pipe (jobs s j) = Whole (Good c) ->
    listener_step settable s Tau (upd_job (upd_lst s (Apply j c todo gone)) j (mkj (ph (jobs s j)) Void))
| l_unloadable : forall s j todo gone, lst s = Each (j :: todo) gone -> pipe (jobs s j) = Whole Unloadable ->
    listener_step settable s Tau (upd_job (upd_lst s Dead) j (mkj (ph (jobs s j)) Void))
(** OSError: got end of file during message *)
| l_torn : forall s j todo gone, lst s = Each (j :: todo) gone -> pipe (jobs s j) = Torn -> listener_step settable s Tau (upd_lst s Dead)
| l_eof : forall s j todo gone, lst s = Each (j :: todo) gone -> pipe (jobs s j) = Void -> (ph (jobs s j) = Closed \/ ph (jobs s j) = Gone) ->
    listener_step settable s Tau (upd_lst s (Each todo (gone ++ [j])))
| l_set : forall s j v x c todo gone, lst s = Apply j ((v, x) :: c) todo gone -> settable v x = true ->
    listener_step settable s (SetVar v x) (upd_env (upd_lst s (Apply j c todo gone)) (assign v x (env s)))
| l_set_fails : forall s j v x c todo gone, lst s = Apply j ((v, x) :: c) todo gone -> settable v x = false ->
    listener_step settable s Tau (upd_lst s Dead)
| l_handled : forall s j todo gone, lst s = Apply j [] todo gone -> listener_step settable s (Handled j) (upd_lst s (Each todo gone))
| l_again : forall s gone, lst s = Each [] gone -> listener_step settable s Tau (upd_lst s (Top gone)).

Inductive step (settable : settable_t) : state -> who -> event -> state -> Prop :=
| s_main : forall s e s', main_step s e s' -> step settable s MainThread e s'
| s_job : forall s j e s', job_step j s e s' -> step settable s (Process j) e s'
| s_listener : forall s e s', listener_step settable s e s' -> step settable s ListenerThread e s'.

(** job.py:249-256: the shell when it starts *)
Definition start (e : vars) : state := mks e None [] (fun _ => mkj Gone Void) 0 Prompt (Top []) false None.

(** The events so far, the first one first *)
Inductive runs (settable : settable_t) (e : vars) : list event -> state -> Prop :=
| r_start : runs settable e [] (start e)
| r_step : forall tr s w ev s', runs settable e tr s -> step settable s w ev s' -> runs settable e (tr ++ [ev]) s'.
