(** What env shows. *)
From Verif.Env Require Export EnvOp.
From Coq Require Export Sorting.Permutation Sorting.Sorted.
Local Open Scope string_scope.
Local Open Scope list_scope.

Section Spec.
Variable V : Type.
Notation dict := (dict V).

(** The value of a variable *)
Definition value (x : string) (d : dict) : option V := option_map snd (find (fun e => String.eqb x (fst e)) d).
(** Names differ *)
Definition proper (d : dict) : Prop := NoDup (map fst d).

(** The requests, as on the help page *)
Inductive request : Type :=
| All | One (x : string) | Matching (p : string) | Remove (x : string).
Definition asked (a : arguments) : request :=
  match a_var a, a_delete a, a_pattern a with
  | Some x, _, _ => One x
  | None, Some x, _ => Remove x
  | None, None, Some p => Matching p
  | None, None, None => All
  end.
(** What the parser lets through *)
Definition accepted (a : arguments) : Prop :=
  (a_var a = None \/ a_delete a = None) /\ (a_var a = None \/ a_pattern a = None) /\ (a_delete a = None \/ a_pattern a = None) /\
  (a_os a = true -> a_delete a = None /\ a_builtins a = false).

(** [p] is part of [x] *)
Definition part_of (p x : string) : Prop := exists a b, x = (a ++ p ++ b)%string.
(** The order of texts: by the first character that differs *)
Definition before (a b : string) : Prop :=
  (exists r, b = (a ++ r)%string) \/
  exists p c d r s, a = (p ++ String c r)%string /\ b = (p ++ String d s)%string /\ (N_of_ascii c < N_of_ascii d)%N.

(** The entries [l] are those of [d] whose name satisfies [P], sorted *)
Definition shows (l : dict) (d : dict) (P : string -> Prop) : Prop :=
  (forall x v, In (x, v) l <-> In (x, v) d /\ P x) /\ NoDup (map fst l) /\ StronglySorted before (map fst l).

Definition visible (a : arguments) (x : string) : Prop := x <> "__builtins__" \/ a_builtins a = true \/ a_os a = true.
(** Which variables: the shell's, or the host's *)
Definition source (a : arguments) (host d : dict) : dict := if a_os a then host else d.

(** The result of env *)
Definition answers (immutable : string -> bool) (a : arguments) (host d : dict) (r : result V) : Prop :=
  match asked a with
  | All => shows (sent r) (source a host d) (visible a) /\ after r = d /\ ending r = Done
  | Matching p => shows (sent r) (source a host d) (fun x => visible a x /\ part_of p x) /\ after r = d /\ ending r = Done
  | One x =>
      after r = d /\
      match value x (source a host d) with
      | Some v => sent r = [(x, v)] /\ ending r = Done
      | None => sent r = [] /\ ending r = Killed
      end
  | Remove x =>
      (forall y, y <> x -> value y (after r) = value y d) /\
      if immutable x then sent r = [] /\ ending r = Killed /\ after r = d
      else value x (after r) = None /\ sent r = match value x d with Some v => [(x, v)] | None => [] end /\ ending r = Done
  end.
End Spec.
Arguments value {V}. Arguments proper {V}. Arguments source {V}. Arguments answers {V}.
