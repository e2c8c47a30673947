(** What remote and sudo are meant to do (C62). *)
From Verif.Sys Require Export Remote ForkSpec.

Section Spec.
Context {V : Type}.

(** What a component is at the moment it is output *)
Definition content (c : cell V) : V := match c with Value v => v | Object _ v => v end.
(** What the pipeline outputs on a host, up to the first value that cannot be sent or to the exception that ended it, as it is to arrive:
    each tuple with [pre] (the host) before it, and each Error, or exception, as an Error labelled with the host. *)
Fixpoint arrives (pre : list (component V)) (label : option nat) (acts : list (act V)) (raised : option V) : list (received V) :=
  match acts with
  | [] => match raised with Some m => [ReceivedError label m] | None => [] end
  | Row b cs :: acts => Received b (pre ++ map (fun c => Content (content c)) cs) :: arrives pre label acts raised
  | Err e :: acts => ReceivedError label e :: arrives pre label acts raised
  | Print :: acts => arrives pre label acts raised
  | Unpicklable m :: _ => [ReceivedError label m]
  end.
Definition meant (h : nat) := arrives [Host h] (Some h).
Definition meant_sudo := arrives [] None.

(** The tuples among what is received, those that are not just an Error *)
Definition is_row (r : received V) : bool := match r with Received _ [AnError _ _] => false | Received _ _ => true | ReceivedError _ _ => false end.
Definition rows := filter is_row.

(** The pipeline prints nothing on the host. *)
Definition quiet (acts : list (act V)) : Prop := ~ In Print acts.
(** No object is changed between two outputs. *)
Definition outputs_object (acts : list (act V)) (o : nat) (v : V) : Prop := exists b cs, In (Row b cs) acts /\ In (Object o v) cs.
Definition unchanged (acts : list (act V)) : Prop :=
  forall o v v', outputs_object acts o v -> outputs_object acts o v' -> v = v'.
(** What an object was when it was first output *)
Fixpoint first_in (o : nat) (cs : list (cell V)) : option V :=
  match cs with
  | [] => None
  | Object p v :: cs => if Nat.eqb o p then Some v else first_in o cs
  | Value _ :: cs => first_in o cs
  end.
Definition all_cells (acts : list (act V)) : list (cell V) := flat_map (fun a => match a with Row _ cs => cs | _ => [] end) acts.
Definition at_first (acts : list (act V)) (c : cell V) : cell V :=
  match c with
  | Value v => Value v
  | Object o v => match first_in o (all_cells acts) with Some w => Object o w | None => Object o v end
  end.
Definition as_first_output (acts : list (act V)) : list (act V) :=
  map (fun a => match a with Row b cs => Row b (map (at_first acts) cs) | a => a end) acts.

(** An Error as the only component of a tuple *)
Definition in_a_tuple (r : received V) : received V := match r with ReceivedError l e => Received false [AnError l e] | r => r end.
End Spec.
