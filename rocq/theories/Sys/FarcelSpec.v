(** What running a pipeline on another host is meant to do, seen from the host (C84). *)
From Verif.Sys Require Export Farcel.

Section Spec.
Context {V : Type}.

(** What the first [n] acts of a pipeline output *)
Fixpoint outputs (p : pipeline V) (n : nat) : list V :=
  match n with
  | 0 => []
  | S n => outputs p n ++ match p n with Some (Output v) => [v] | _ => [] end
  end.
(** [vs] is everything that the pipeline outputs, and it comes to an end. *)
Definition everything (p : pipeline V) (vs : list V) : Prop :=
  exists n, p n = None /\ (forall m, m < n -> p m <> None) /\ vs = outputs p n.

(** What a client sends: a version, how marcel is used, the pipeline, and then it closes the connection (op/remote.py:146-154,
    op/sudo.py:100-107: communicate). *)
Definition request (version usage : object V) (p : pipeline V) : list (item V) := [Item version; Item usage; Item (Pipeline p)].
(** A request that is not understood: one that ends too early (the pipeline could not be pickled), or that the host cannot unpickle (a
    module that is not there), in which case what follows may make no sense either. *)
Definition not_an_item (i : item V) : Prop := match i with Item _ => False | Garbage => True end.
Definition broken (input : list (item V)) : Prop :=
  exists good bad, input = good ++ bad /\ length good <= 2 /\ (forall i, In i good -> ~ not_an_item i) /\ (forall i, In i bad -> not_an_item i).

Definition alive (s : state V) (p : nat) : Prop := exists q, In q (procs s) /\ pid q = p.
Definition ended (s : state V) : Prop := at_ s = Ended.
(** The client reads the output until nobody can write to it any more. *)
Definition client_done (s : state V) : Prop := ended s /\ forall q, In q (procs s) -> open_output q = false.

(** How often farcel's main thread took a step *)
Definition main_steps (tr : list actor) : nat := length (filter (fun a => match a with Main => true | _ => false end) tr).
(** [s1] is when farcel, after the end of the pipeline, looks for the processes that are left, and [s2] is just after. *)
Definition looks (env_ok : bool) (s1 s2 : state V) : Prop := at_ s1 = Waiting /\ step env_ok s1 Main s2.
End Spec.
