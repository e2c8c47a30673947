(** timer: marcel/op/timer.py:46-105 (C68). Model only; see TimerSpec.v.

    Two threads: the one that runs the pipeline, and a Metronome. They share [now], protected by a Condition. The threads are interleaved
    between any two steps; a schedule is any list of events. An event that is not possible (waiting for the lock, sleeping) changes nothing.

    Simplifications: time is in units of the clock, and does not go back; an interval below zero is left out; waiting on the Condition can end
    at any moment (notified, or after a second). Sending is one step: what is downstream can take any time after it. *)
From Coq Require Export List Arith Bool Lia.
Export ListNotations.

Inductive owner : Type := Metro (i : nat) | Runner.
(** timer.py:86-90, 100-105: before lock.acquire; before self.now = time.time(); before release; before time.sleep; asleep *)
Inductive mpc : Type := MAcquire | MSet | MRelease | MBeforeSleep | MSleep (until : nat).
(** timer.py:69-80: before acquire; while self.now is None (holding the lock); in wait; before now = self.now; before self.now = None;
    before release; before send *)
Inductive rpc : Type := RAcquire | RCheck | RWait | RTake | RClear (t : nat) | RRelease (t : nat) | RSend (t : nat).

(** [ticks] is what the metronomes have put into [now] so far, [out] what has been sent. *)
Record state := mkstate {
  clock : nat; metronomes : list mpc; runner : rpc; lock : option owner; now : option nat; ticks : list nat; out : list nat }.

(** timer.py:51-62 [__init__], [setup], and 68 [start] *)
Definition start (clock : nat) : state := mkstate clock [MAcquire] RAcquire None None [] [].

Inductive event : Type := Pass (d : nat) | M (i : nat) | R | Again.

Fixpoint replace {A} (i : nat) (a : A) (l : list A) : list A :=
  match i, l with
  | _, [] => []
  | 0, _ :: l => a :: l
  | S i, b :: l => b :: replace i a l
  end.

Section Timer.
Variable interval : nat.

(** timer.py:84-90 [register_tick], 102-105 [Metronome.run] *)
Definition metro (i : nat) (p : mpc) (s : state) : state :=
  let go p' l n ts := mkstate (clock s) (replace i p' (metronomes s)) (runner s) l n ts (out s) in
  match p with
  | MAcquire => match lock s with None => go MSet (Some (Metro i)) (now s) (ticks s) | Some _ => s end
  | MSet => go MRelease (lock s) (Some (clock s)) (ticks s ++ [clock s])
  | MRelease => go MBeforeSleep None (now s) (ticks s)
  | MBeforeSleep => go (MSleep (clock s + interval)) (lock s) (now s) (ticks s)
  | MSleep u => if u <=? clock s then go MAcquire (lock s) (now s) (ticks s) else s
  end.

(** timer.py:69-80 [run] *)
Definition main (s : state) : state :=
  let go p' l n o := mkstate (clock s) (metronomes s) p' l n (ticks s) o in
  match runner s with
  | RAcquire | RWait => match lock s with None => go RCheck (Some Runner) (now s) (out s) | Some _ => s end
  | RCheck => match now s with None => go RWait None None (out s) | Some _ => go RTake (lock s) (now s) (out s) end
  | RTake => match now s with Some t => go (RClear t) (lock s) (now s) (out s) | None => s end
  | RClear t => go (RRelease t) (lock s) None (out s)
  | RRelease t => go (RSend t) None (now s) (out s)
  | RSend t => go RAcquire (lock s) (now s) (out s ++ [t])
  end.

Definition step (e : event) (s : state) : state :=
  match e with
  | Pass d => mkstate (clock s + d) (metronomes s) (runner s) (lock s) (now s) (ticks s) (out s)
  | M i => match nth_error (metronomes s) i with Some p => metro i p s | None => s end
  | R => main s
  (** The pipeline is left by an exception from downstream (as in first, api.py:280-292), and run again: [setup] makes another
      metronome; the first one still runs; [now] stays. (If no thread is between acquire and release.) *)
  | Again => match runner s, lock s with
             | RAcquire, None => mkstate (clock s) (metronomes s ++ [MAcquire]) RAcquire None (now s) (ticks s) (out s)
             | _, _ => s
             end
  end.
Definition run (h : list event) (s : state) : state := fold_left (fun s e => step e s) h s.
End Timer.
