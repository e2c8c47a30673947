(* The operator fork (and remote, upload and download, which share the class):
   marcel/op/forkmanager.py:36-191.

   One child process per thread id runs the pipeline and writes its outputs to a pipe
   of its own; the parent polls the pipes in turn and passes on what it reads.

   Simplifications:
   - An output (or an Error, or an exception of the setup of the pipeline in the child,
     forkmanager.py:52-54 and 69-73, all of which travel the same way; what a child sends
     is in ForkWorkers.v) is an element of a type V; pickling is the identity.
   - A pipe holds at most cap messages (the operating system counts bytes).
   - The outputs of a child are given by a list: children do not interact.
   - Children are not killed from outside, and nothing downstream of fork raises.
   - reader.poll(timeout=0.1) succeeds if there is something to read, or the end of the
     file, at the time of the step of the parent, and otherwise times out. *)
From Coq Require Import List Bool Arith.
Import ListNotations.

Section Fork.
Context {V : Type}.

(* main.py:367: multiprocessing.set_start_method, 'spawn' unless the environment says
   otherwise. *)
Inductive start_method := Spawn | ForkMethod.

(* What a child still has to do: forkmanager.py:61-75 *)
Record child := mkchild {
  todo : list V;      (* outputs not yet sent *)
  open : bool;        (* its writer is open *)
  alive : bool        (* the process has not exited *)
}.

(* Where the parent is in ForkManager.run, forkmanager.py:99-112 *)
Inductive phase :=
| Polling (w completed : nat)     (* lines 105-110: the loop on completed *)
| Joining (w : nat)               (* lines 111-112: worker.close() of worker w *)
| Done.

Record world := mkworld {
  kids : nat -> child;
  pipe : nat -> list V;           (* sent by the child, not yet received *)
  par : phase
}.

(* What is observed of a step *)
Inductive obs :=
| OChild (w : nat)                (* a step of child w *)
| OData (w : nat) (x : V)         (* the parent got x from worker w, and sent it downstream *)
| OTimeout (w : nat)              (* nothing to read from worker w *)
| OEof (w : nat)                  (* the end of the output of worker w *)
| OJoin (w : nat).                (* the process of worker w has ended *)

Definition upd {A} (f : nat -> A) (k : nat) (a : A) : nat -> A :=
  fun i => if i =? k then a else f i.

(* Has the end of file been reached on the reader of worker w: nothing is left in the pipe,
   and no process has the writer.  forkmanager.py:123 and 167.  A process started by
   fork has, besides its own, the writers of the workers started after it. *)
Definition at_eof (sm : start_method) (s : world) (w : nat) : bool :=
  match pipe s w with
  | _ :: _ => false
  | [] => negb (open (kids s w)) &&
          match sm with
          | Spawn => true
          | ForkMethod => forallb (fun i => negb (alive (kids s i))) (seq 0 w)
          end
  end.

(* run_pipeline_in_child and SendToParent, forkmanager.py:36-75: send the next output
   (blocks while the pipe is full), then close the writer, then exit. *)
Definition child_step (cap : nat) (s : world) (w : nat) : option world :=
  let k := kids s w in
  match todo k with
  | x :: r =>
      if length (pipe s w) <? cap
      then Some (mkworld (upd (kids s) w (mkchild r (open k) (alive k))) (upd (pipe s) w (pipe s w ++ [x])) (par s))
      else None
  | [] =>
      if open k then Some (mkworld (upd (kids s) w (mkchild [] false (alive k))) (pipe s) (par s))
      else if alive k then Some (mkworld (upd (kids s) w (mkchild [] false false)) (pipe s) (par s))
      else None
  end.

(* forkmanager.py:105: the test of the loop. *)
Definition polling (n w completed : nat) : phase :=
  if completed <? n then Polling w completed else Joining 0.

(* ForkManager.run and ForkWorker.consume_input, forkmanager.py:105-112, 169-191. *)
Definition parent_step (sm : start_method) (n : nat) (s : world) : option (obs * world) :=
  match par s with
  | Polling w c =>
      match pipe s w with
      | x :: r => Some (OData w x, mkworld (kids s) (upd (pipe s) w r) (polling n ((w + 1) mod n) c))
      | [] =>
          if at_eof sm s w
          then Some (OEof w, mkworld (kids s) (pipe s) (polling n ((w + 1) mod n) (c + 1)))
          else Some (OTimeout w, mkworld (kids s) (pipe s) (polling n ((w + 1) mod n) c))
      end
  | Joining w =>
      if alive (kids s w) then None
      else Some (OJoin w, mkworld (kids s) (pipe s) (if w + 1 <? n then Joining (w + 1) else Done))
  | Done => None
  end.

(* One step, of the parent or of one of the n children *)
Inductive step (sm : start_method) (cap n : nat) : world -> obs -> world -> Prop :=
| step_child : forall s w s', w < n -> child_step cap s w = Some s' -> step sm cap n s (OChild w) s'
| step_parent : forall s o s', parent_step sm n s = Some (o, s') -> step sm cap n s o s'.

(* ForkManager.setup, and the starting of the workers, forkmanager.py:96-102: worker w will
   output outs w.  (The children may run before the last one has been started: this
   changes nothing, since the parent does not read before.) *)
Definition start (outs : nat -> list V) (n : nat) : world :=
  mkworld (fun w => mkchild (outs w) true true) (fun _ => []) (polling n 0 0).

(* Fork.setup, op/fork.py:124-137: the number of workers is positive. *)

End Fork.
Arguments world : clear implicits.
Arguments child : clear implicits.
Arguments obs : clear implicits.
