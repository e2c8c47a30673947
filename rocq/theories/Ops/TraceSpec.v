(** Vocabulary for C73, the part about the contents of a trace. *)
From Verif.Ops Require Export Trace.
Set Implicit Arguments.
Local Open Scope list_scope.

(** The values that the trace says operator j was run on, in order. *)
Fixpoint runs (j : nat) (l : list entry) : list val :=
  match l with
  | [] => []
  | E_run i _ x :: l' => if Nat.eqb i j then x :: runs j l' else runs j l'
  | _ :: l' => runs j l'
  end.
(** The Errors that the trace says operator j reported or passed on, in order. *)
Fixpoint reports (j : nat) (l : list entry) : list err :=
  match l with
  | [] => []
  | E_error i _ e :: l' => if Nat.eqb i j then e :: reports j l' else reports j l'
  | _ :: l' => reports j l'
  end.
Fixpoint setups (l : list entry) : list (nat * string) :=
  match l with
  | [] => []
  | E_setup i n :: l' => (i, n) :: setups l'
  | _ :: l' => setups l'
  end.
(** What operator j is called on the lines about it. *)
Definition called (j : nat) (n : string) (l : list entry) : Prop :=
  forall e, In e l ->
    match e with
    | E_run i n' _ | E_error i n' _ => i = j -> n' = n
    | _ => True
    end.

(** [a] is an initial part of [b]. *)
Definition initial_part (A : Type) (a b : list A) : Prop := exists rest, b = a ++ rest.

(** What the operators 0 ... j of the command deliver when it runs untraced. *)
Definition delivered (j : nat) (ops : list machine) (src : source) : list event := fst (exec (pipe (firstn j ops)) src).

Definition representable (m : stage) : Prop := before_setup m <> None /\ after_setup m <> None.

(** The operator that the words of the command stand for (Basic.v, Group.v) *)
Definition meant (o : operator) : machine :=
  match o with
  | O_map f _ => map_op f
  | O_select f _ => select_op f
  | O_squish f _ => squish_op f
  | O_head n => head_op n
  | O_tail n => tail_op n
  | O_reverse => reverse_op
  | O_sort None => sort_op None
  | O_sort (Some (f, _)) => sort_op (Some f)
  | O_unique => unique_op
  | O_window p o d => window_op p o d
  | O_expand p => expand_op p
  | O_other m _ _ => m
  end.
