(* What fork is meant to do (C36). *)
From Coq Require Import List Bool Arith.
From Verif.Sys Require Import Fork.
Import ListNotations.

(* A run: the observations, from the first to the last *)
Inductive runs {V} (sm : start_method) (cap n : nat) : world V -> list (obs V) -> world V -> Prop :=
| runs_nil : forall s, runs sm cap n s [] s
| runs_snoc : forall s t s1 o s2, runs sm cap n s t s1 -> step sm cap n s1 o s2 -> runs sm cap n s (t ++ [o]) s2.

(* What fork has output that comes from worker w, in order *)
Definition output_of {V} (w : nat) (t : list (obs V)) : list V :=
  flat_map (fun o => match o with OData w' x => if w' =? w then [x] else [] | _ => [] end) t.

(* The workers whose end has been noticed, each time it was *)
Definition ends {V} (t : list (obs V)) : list nat :=
  flat_map (fun o => match o with OEof w => [w] | _ => [] end) t.

Definition timeouts {V} (t : list (obs V)) : list nat :=
  flat_map (fun o => match o with OTimeout w => [w] | _ => [] end) t.

(* fork has ended *)
Definition finished {V} (s : world V) : Prop := par s = Done.

(* Everything was delivered: the output of fork is an interleaving of the outputs of
   the workers *)
Definition complete {V} (outs : nat -> list V) (n : nat) (t : list (obs V)) : Prop :=
  forall w, w < n -> output_of w t = outs w.

Definition prefix {V} (a b : list V) : Prop := exists c, b = a ++ c.
