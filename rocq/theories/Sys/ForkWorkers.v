(** The workers of fork (C92): marcel/op/fork.py:124-143, marcel/op/forkmanager.py:36-75 and 150-158, and what PipelineMarcel.run_pipeline
    (pipeline.py) does in a worker: the setup of the operators, then their run and flush, and always their cleanup.

    What becomes of the messages of the workers, on their way to the parent, is in Fork.v.

    Simplifications: a pipeline that is not fork itself is given by what it does for each list of thread ids, innermost first: the
    exception that its setup raises, or what it passes on and the exception that its run raises. The operators after fork in the same
    pipeline pass everything on. The workers of a fork that is nested are listed one after the other. *)
From Coq Require Export List ZArith Bool.
From Verif.Sys Require Export Fork.
Export ListNotations.

Section Workers.
(** Values that flow, the elements of iterables, and exceptions *)
Variables V T E : Type.
(** KillCommandException of fork.py:130 and 134-136 and forkmanager.py:86; the AssertionError of multiprocessing: daemonic processes are
    not allowed to have children *)
Inductive failure : Type := Not_positive | Empty | Invalid | Too_many_args | Daemonic | Other (e : E).
Inductive thread_id : Type := Nth (k : nat) | Item (x : T).

(** FORK_GEN, evaluated: an int, an iterable, anything else *)
Inductive forkgen : Type := Int (n : Z) | Iterable (l : list T) | Neither.
(** fork.py:126-136 *)
Definition thread_ids (g : forkgen) : list thread_id + failure :=
  match g with
  | Int n => if (0 <? n)%Z then inl (map Nth (seq 0 (Z.to_nat n))) else inr Not_positive
  | Iterable [] => inr Empty
  | Iterable l => inl (map Item l)
  | Neither => inr Invalid
  end.

(** What flows in a pipeline and is sent to the parent: values, and exceptions of workers, which are received like values (forkmanager.py:70-74
    and 164-168) *)
Inductive message : Type := Value (v : V) | Exception (e : failure).
(** What the operators of a pipeline do: the exception of setup; else what they pass on in run and flush, and the exception of these *)
Record behaviour : Type := mkbehaviour { setup_raises : option failure; passes : list message; run_raises : option failure }.

(** A worker's connection, and whether writer.send of a closed one raised OSError *)
Record connection : Type := mkconn { sent : list message; opened : bool; broken : bool }.
Definition send (m : message) (c : connection) : connection :=
  if opened c then mkconn (sent c ++ [m]) true (broken c) else mkconn (sent c) false true.
Definition close (c : connection) : connection := mkconn (sent c) false (broken c).

(** forkmanager.py:60-75 [run_pipeline_in_child]: run_pipeline raises from setup before its try statement; from run and flush after
    cleanup, which for the last operator is SendToParent.cleanup (56-58). *)
Definition run_in_child (b : behaviour) : connection :=
  let c := mkconn [] true false in
  match setup_raises b with
  | Some e => close (send (Exception e) c)
  | None =>
      let c := close (fold_left (fun c m => send m c) (passes b) c) in
      match run_raises b with None => c | Some e => let c := send (Exception e) c in if broken c then c else close c end
  end.

(** A pipeline: fork (with the number of parameters of its pipeline, fork.py:139-143), or others *)
Inductive pipeline : Type := Ops (f : list thread_id -> behaviour) | Forks (g : forkgen) (params : nat) (body : pipeline).

(** forkmanager.py:155; a daemon must not start processes (multiprocessing.Process.start). *)
Definition workers_are_daemons : bool := true.
(** The behaviour of a pipeline in a worker *)
Fixpoint behaves (ids : list thread_id) (p : pipeline) : behaviour :=
  match p with
  | Ops f => f ids
  | Forks g params body =>
      match thread_ids g with
      | inr e => mkbehaviour (Some e) [] None
      | inl l =>
          if (1 <? params)%nat then mkbehaviour (Some Too_many_args) [] None
          else if workers_are_daemons then mkbehaviour None [] (Some Daemonic)
          else mkbehaviour None (flat_map (fun i => sent (run_in_child (behaves (match params with O => ids | S _ => i :: ids end) body))) l) None
      end
  end.

(** What worker w of a fork at the top sends *)
Definition worker (l : list thread_id) (params : nat) (body : pipeline) (w : nat) : list message :=
  match nth_error l w with
  | Some i => sent (run_in_child (behaves (match params with O => [] | S _ => [i] end) body))
  | None => []
  end.
(** A fork at the top: the number of workers and what each sends, or the failure *)
Definition fork (g : forkgen) (params : nat) (body : pipeline) : (nat * (nat -> list message)) + failure :=
  match thread_ids g with
  | inr e => inr e
  | inl l => if (1 <? params)%nat then inr Too_many_args else inl (length l, worker l params body)
  end.
End Workers.
