(** What pipelines in the Python API should be. *)
From Verif.Ops Require Export Api.
Local Open Scope list_scope.

(** The output of a pipeline, as Python values: a tuple of one component as that component, if [unwrap]. *)
Definition delivered (unwrap : bool) (es : list event) : list item :=
  flat_map (fun e => match e with
                     | Data x => [Value (if unwrap then unwrap_op_output (wrap x) else wrap x)]
                     | Err e | Fatal e => [Error e]
                     | Flush => []
                     end) es.

Definition values (l : list item) : list val := flat_map (fun i => match i with Value v => [v] | Error _ => [] end) l.

(** [meaning p n l]: the pipeline in the variable [n] consists of the operators [l], [a | b] being those of [a] followed by those of
    [b]. *)
Inductive meaning (p : list stmt) : nat -> list nat -> Prop :=
| meaning_new : forall n a, nth_error p n = Some (New a) -> meaning p n [a]
| meaning_or : forall n i j l l', nth_error p n = Some (Or i j) -> i < n -> j < n -> meaning p i l -> meaning p j l' -> meaning p n (l ++ l').

(** Statements use results of earlier statements. *)
Definition scoped (p : list stmt) : Prop := forall n i j, nth_error p n = Some (Or i j) -> i < n /\ j < n.

Definition mentions (s : stmt) (v : nat) : Prop := match s with New _ => False | Or i j => v = i \/ v = j end.

(** The statement [k] extends the variable [v]: it is to the left of [|]. *)
Definition extended_at (p : list stmt) (v k : nat) : Prop := exists j, nth_error p k = Some (Or v j).

(** What is extended is not used any more, not even in the same statement. *)
Definition used_once (p : list stmt) : Prop :=
  forall v k, extended_at p v k -> nth_error p k <> Some (Or v v) /\
    forall k' s, k < k' -> nth_error p k' = Some s -> ~ mentions s v.
