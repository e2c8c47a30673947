(** What the output of an external command should become. *)
From Verif.Sys Require Export BashOp.
Local Open Scope list_scope.

(** [lines t ls]: the lines of the text [t]; the last may lack a line end. *)
Inductive lines : text -> list text -> Prop :=
| lines_end : lines [] []
| lines_line : forall l r ls, ~ In nl l -> lines r ls -> lines (l ++ nl :: r) (l :: ls)
| lines_last : forall l, ~ In nl l -> l <> [] -> lines l [l].

(** What was written to a stream, what was sent on from it *)
Definition written (i : fd) (tr : list event) : text :=
  flat_map (fun e => match e with Write j t => if fd_eqb i j then t else [] | _ => [] end) tr.
Definition sent (i : fd) (tr : list event) : list text :=
  flat_map (fun e => match e with Output j l => if fd_eqb i j then [l] else [] | _ => [] end) tr.

(** Any execution *)
Definition any (s : state) (e : event) : Prop := True.

(** The command leaves nothing behind that could still write to its pipes. *)
Definition nothing_behind (s : state) (e : event) : Prop := e = Exit -> forall i, open (streams s i) = false.

(** The command does not end just after marcel has given up waiting for output, and before it has asked whether the
    command has ended. *)
Definition no_race (s : state) (e : event) : Prop := e = Exit -> reader s <> Ready [].

Definition calm (s : state) (e : event) : Prop := nothing_behind s e /\ no_race s e.

(** What can happen from a state on *)
Inductive later : state -> list event -> state -> Prop :=
| later_none : forall s, later s [] s
| later_step : forall s e s' tr s'', step s e s' -> later s' tr s'' -> later s (e :: tr) s''.
