(* Job control: marcel/job.py, marcel/op/jobop.py, bg.py, fg.py, jobs.py and the
   part of marcel/main.py that starts jobs and waits for them.

   The model is a small-step machine.  The main process is a stack of
   micro-instructions, one per Python statement that reads or writes a field
   shared with the signal handlers, or that makes a system call.  The handlers of
   ctrl-C (SIGINT) and ctrl-Z (SIGTSTP) run in the main thread, between two
   byte codes, so they are pushed on that stack.  Child processes exit whenever
   they like (an external kill counts as that).

   Not modelled: the listener thread that brings back a child's variables
   (see the Env theory), printing, reuse of process ids by the operating system,
   and signals sent to the children by anyone but marcel and the terminal. *)
From Coq Require Import List Bool Arith Lia.
Import ListNotations.
Set Implicit Arguments.

(* job.py:89-94 *)
Inductive jstate := FOREGROUND | BACKGROUND | PAUSED | DEAD.

(* State of the operating system process of a job.  Zombie: it has exited, and
   its parent has not yet asked.  Reaped: the parent has been told (waitpid), and
   the process id is gone: os.kill then raises ProcessLookupError.
   Doomed: SIGKILL was sent. *)
Inductive pstate := PRun | PStop | PDoomed | PZombie | PReaped.

(* job.py:99-104.  hasp: the field process is not None. *)
Record jrec := mkJ { lab : jstate; hasp : bool; ps : pstate }.

Inductive op := OpBg | OpFg.

(* What to do with the result of foreground() *)
Inductive kont := KWait | KCtrlC | KCtrlZ.

(* What to do after remove_completed() *)
Inductive rkont := KJobs | KSetup (n : nat) (o : op).

Inductive sig := TERM | KILL | TSTP | CONT.

Inductive cmd :=
| CCreate                            (* job.py:266-267 create_job, 168-193 *)
| CAppend (j : nat)                  (* job.py:268  self._jobs.append(job) *)
| CRemove (k : rkont) (l acc : list nat)   (* job.py:322-327 remove_completed *)
| CPick (n : nat) (o : op)           (* jobop.py:48-50 *)
| COp (o : op) (j : nat)             (* bg.py / fg.py action *)
| CBgSet (j : nat)                   (* job.py:147 *)
| CFgSet (j : nat) (resume : bool)   (* job.py:156, 158 *)
| CSig (j : nat) (s : sig)           (* os.kill outside a try *)
| CKill (j : nat)                    (* job.py:112 *)
| CKillSet (j : nat)                 (* job.py:114 *)
| CKillTerm (j : nat)                (* job.py:116 *)
| CKillJoin (j : nat)                (* job.py:117 *)
| CKillTest (j : nat)                (* job.py:118 *)
| CKillKill (j : nat)                (* job.py:119 *)
| CKillJoin2 (j : nat)               (* job.py:120 *)
| CKillTest2 (j : nat)               (* job.py:121 *)
| CKillClear (j : nat)               (* job.py:124 *)
| CTryEnd                            (* job.py:125  except ProcessLookupError: pass *)
| CPause (j : nat)                   (* job.py:138-139 *)
| CPauseSet (j : nat)                (* job.py:140 *)
| CScan (l : list nat) (k : kont)    (* job.py:285-290 foreground, the loop *)
| CCheck (j : nat)                   (* job.py:196  check_alive, the test *)
| CSetDead (j : nat)                 (* job.py:197 *)
| CClearProc (j : nat)               (* job.py:198 *)
| CTestFg (j : nat) (l : list nat) (k : kont)    (* job.py:288 *)
| CWait                              (* job.py:295, 298: foreground = self.foreground() *)
| CWaitTest (j : nat)                (* job.py:296 *)
| CWaitJoin (j : nat)                (* job.py:297: foreground.process *)
| CJoined (j : nat)                  (* job.py:297: inside .join(0.1) *)
| CZStart                            (* job.py:318: self._jobs *)
| CZLoop (l : list nat)              (* job.py:318-320 *)
| CKillAll (l : list nat)            (* job.py:262-263 *)
| CHalt                              (* end of the shell *)
| CCmdEnd.                           (* main.py:122: except KillCommandException *)

Inductive status := Running | Crashed | Halted.

Record W := mkW {
  rec : nat -> jrec;      (* by order of creation *)
  nxt : nat;              (* number of jobs created *)
  order : list nat;       (* JobControl._jobs *)
  stk : list cmd;         (* what the main process is doing, innermost first *)
  pendz : bool;           (* ctrl-Z typed, its handler not yet entered *)
  stat : status
}.

Definition upd (f : nat -> jrec) j r : nat -> jrec := fun i => if Nat.eqb i j then r else f i.

Definition setrec w j r := mkW (upd (rec w) j r) (nxt w) (order w) (stk w) (pendz w) (stat w).
Definition setlab w j l := setrec w j (mkJ l (hasp (rec w j)) (ps (rec w j))).
Definition setps w j p := setrec w j (mkJ (lab (rec w j)) (hasp (rec w j)) p).
Definition sethas w j b := setrec w j (mkJ (lab (rec w j)) b (ps (rec w j))).
Definition setorder w o := mkW (rec w) (nxt w) o (stk w) (pendz w) (stat w).
Definition setstk w s := mkW (rec w) (nxt w) (order w) s (pendz w) (stat w).
Definition setpend w b := mkW (rec w) (nxt w) (order w) (stk w) b (stat w).
Definition setstat w s := mkW (rec w) (nxt w) (order w) (stk w) (pendz w) s.
Definition push cs w := setstk w (cs ++ stk w).

(* An exception nobody catches: main.py:219-237 catches KeyboardInterrupt and
   EOFError only.  Simplification: the atexit handler that then runs
   (main.py:69-88) is modelled only for a normal exit. *)
Definition crash w := setstat (setstk w []) Crashed.

(* ProcessLookupError: caught by the innermost kill() being executed, job.py:125 *)
Fixpoint unwind_try (s : list cmd) : option (list cmd) :=
  match s with
  | [] => None
  | CTryEnd :: r => Some r
  | _ :: r => unwind_try r
  end.
Definition raise_lookup w :=
  match unwind_try (stk w) with Some r => setstk w r | None => crash w end.

(* KillCommandException: caught by parse_and_run_command, main.py:122 *)
Fixpoint unwind_cmd (s : list cmd) : option (list cmd) :=
  match s with
  | [] => None
  | CCmdEnd :: r => Some r
  | _ :: r => unwind_cmd r
  end.
Definition raise_kill w :=
  match unwind_cmd (stk w) with Some r => setstk w r | None => crash w end.

Definition gone (p : pstate) : bool := match p with PZombie | PReaped => true | _ => false end.

(* Process.is_alive and Process.join poll the child, and so reap it *)
Definition reap_ps (p : pstate) := match p with PZombie => PReaped | _ => p end.
Definition poll w j := setps w j (reap_ps (ps (rec w j))).

(* multiprocessing.Process.start() calls _cleanup(), which polls every child *)
Definition poll_all w :=
  mkW (fun i => mkJ (lab (rec w i)) (hasp (rec w i)) (reap_ps (ps (rec w i))))
      (nxt w) (order w) (stk w) (pendz w) (stat w).

(* The effect of a signal on a child: SIGINT is ignored, SIGTSTP stops (default
   action), SIGTERM makes it exit at some later moment, unless it is stopped;
   since a running child may exit at any moment anyway, SIGTERM changes nothing
   here.  SIGKILL condemns it, stopped or not. *)
Definition deliver (s : sig) (p : pstate) : pstate :=
  match s, p with
  | TSTP, PRun => PStop
  | CONT, PStop => PRun
  | KILL, PRun | KILL, PStop => PDoomed
  | _, _ => p
  end.

(* os.kill(self.process.pid, s), then k.  process None: AttributeError, which
   nobody catches *)
Definition os_kill w j s (k : W -> W) : W :=
  if hasp (rec w j)
  then match ps (rec w j) with
       | PReaped => raise_lookup w
       | p => k (setps w j (deliver s p))
       end
  else crash w.

Definition is_fg (l : jstate) := match l with FOREGROUND => true | _ => false end.
Definition is_bg (l : jstate) := match l with BACKGROUND => true | _ => false end.
Definition is_dead (l : jstate) := match l with DEAD => true | _ => false end.

(* One micro-instruction, already removed from the stack of w.
   The lines of job.py are those cited beside each constructor of cmd. *)
Definition exec (c : cmd) (w : W) : W :=
  match c with
  | CCreate =>
      let w1 := poll_all w in
      push [CAppend (nxt w1)]
        (mkW (upd (rec w1) (nxt w1) (mkJ FOREGROUND true PRun)) (S (nxt w1)) (order w1)
             (stk w1) (pendz w1) (stat w1))
  | CAppend j => setorder w (order w ++ [j])
  | CRemove k (j :: l) acc =>
      if hasp (rec w j) then
        push [CRemove k l (if gone (ps (rec w j)) then acc else acc ++ [j])] (poll w j)
      else push [CRemove k l acc] w
  | CRemove k [] acc =>
      push (match k with KJobs => [] | KSetup n o => [CPick n o] end) (setorder w acc)
  | CPick n o =>
      match nth_error (order w) n with
      | Some j => push [COp o j] w
      | None => raise_kill w
      end
  | COp OpBg j => if is_dead (lab (rec w j)) then w else push [CBgSet j] w
  | COp OpFg j =>
      match lab (rec w j) with
      | FOREGROUND => w
      | BACKGROUND => push [CFgSet j false] w
      | PAUSED => push [CFgSet j true] w
      | DEAD => raise_kill w
      end
  | CBgSet j => push [CSig j CONT] (setlab w j BACKGROUND)
  | CFgSet j r => push (if r then [CSig j CONT] else []) (setlab w j FOREGROUND)
  | CSig j s => os_kill w j s (fun w' => w')
  | CKill j => if is_dead (lab (rec w j)) then w else push [CKillSet j] w
  | CKillSet j => push [CKillTerm j; CTryEnd] (setlab w j DEAD)
  | CKillTerm j => os_kill w j TERM (push [CKillJoin j])
  | CKillJoin j => if hasp (rec w j) then push [CKillTest j] (poll w j) else crash w
  | CKillTest j =>
      if hasp (rec w j) then push (if gone (ps (rec w j)) then [] else [CKillKill j]) (poll w j)
      else crash w
  | CKillKill j => os_kill w j KILL (push [CKillJoin2 j])
  | CKillJoin2 j => if hasp (rec w j) then push [CKillTest2 j] (poll w j) else crash w
  | CKillTest2 j =>
      if hasp (rec w j) then push (if gone (ps (rec w j)) then [CKillClear j] else []) (poll w j)
      else crash w
  | CKillClear j => sethas w j false
  | CTryEnd => w
  | CPause j =>
      match lab (rec w j) with
      | PAUSED | DEAD => w
      | _ => if hasp (rec w j) then push [CPauseSet j] w else crash w
      end
  | CPauseSet j => push [CSig j TSTP] (setlab w j PAUSED)
  | CScan (j :: l) k => push [CCheck j; CTestFg j l k] w
  | CScan [] k => push (match k with KCtrlZ => [CZStart] | _ => [] end) w
  | CCheck j =>
      if hasp (rec w j)
      then push (if gone (ps (rec w j)) then [CSetDead j; CClearProc j] else []) (poll w j)
      else push [CSetDead j; CClearProc j] w
  | CSetDead j => setlab w j DEAD
  | CClearProc j => sethas w j false
  | CTestFg j l k =>
      if is_fg (lab (rec w j))
      then push (match k with
                 | KWait => [CWaitTest j]
                 | KCtrlC => [CKill j]
                 | KCtrlZ => [CPause j; CZStart]
                 end) w
      else push [CScan l k] w
  | CWait => push [CScan (order w) KWait] w
  | CWaitTest j => if is_dead (lab (rec w j)) then w else push [CWaitJoin j] w
  | CWaitJoin j => if hasp (rec w j) then push [CJoined j] w else crash w
  | CJoined j => push [CWait] (poll w j)
  | CZStart => push [CZLoop (order w)] w
  | CZLoop (j :: l) =>
      if is_bg (lab (rec w j)) then push [COp OpBg j; CZLoop l] w else push [CZLoop l] w
  | CZLoop [] => w
  | CKillAll (j :: l) => push [CKill j; CKillAll l] w
  | CKillAll [] => w
  | CHalt => setstat w Halted
  | CCmdEnd => w
  end.

(* What can be typed at the prompt: a command that runs as a job, bg, fg, jobs,
   any other command that runs in the main process, and leaving the shell *)
Inductive input := IJob | IBg (n : nat) | IFg (n : nat) | IJobs | IOther | IExit.

(* main.py:211-215, jobop.py:44-50, jobs.py:57-63, main.py:69-73 *)
Definition code (o : list nat) (i : input) : list cmd :=
  match i with
  | IJob => [CCreate]
  | IBg n => [CRemove (KSetup n OpBg) o []]
  | IFg n => [CRemove (KSetup n OpFg) o []]
  | IJobs => [CRemove KJobs o []]
  | IOther => []
  | IExit => [CKillAll o; CHalt]
  end.

Inductive ev :=
| EMain                 (* the main process takes a step *)
| EExit (j : nat)       (* the process of job j ends *)
| EZTyped               (* ctrl-Z: the terminal stops every child *)
| EZHandle              (* the main process enters its handler *)
| ECHandle              (* ctrl-C: same *)
| EType (i : input).    (* main.py:225-233: the prompt reads a command *)

Definition stop_all w :=
  mkW (fun i => mkJ (lab (rec w i)) (hasp (rec w i)) (deliver TSTP (ps (rec w i))))
      (nxt w) (order w) (stk w) (pendz w) (stat w).

Definition step (w : W) (e : ev) : option W :=
  match stat w with
  | Running =>
      match e with
      | EMain => match stk w with c :: r => Some (exec c (setstk w r)) | [] => None end
      | EExit j =>
          if gone (ps (rec w j)) then None
          else if j <? nxt w then Some (setps w j PZombie) else None
      | EZTyped => Some (setpend (stop_all w) true)
      | EZHandle =>
          if pendz w then Some (push [CScan (order w) KCtrlZ] (setpend w false)) else None
      | ECHandle => Some (push [CScan (order w) KCtrlC] w)
      | EType i =>
          match stk w with
          | [] => Some (setstk w (code (order w) i ++ [CCmdEnd; CWait]))
          | _ => None
          end
      end
  | _ => None
  end.

Fixpoint run (w : W) (es : list ev) : option W :=
  match es with
  | [] => Some w
  | e :: r => match step w e with Some w' => run w' r | None => None end
  end.

(* main.py:162-169, 297: the startup scripts run before the first prompt, and
   nothing waits for the jobs they start *)
Definition boot (n : nat) : W :=
  mkW (fun _ => mkJ DEAD false PReaped) 0 []
      (concat (repeat [CCreate; CCmdEnd] n)) false Running.
