(** What a user expects of jobs that change variables. *)
From Verif.Sys Require Export Listener.
Local Open Scope list_scope.

(** The jobs whose changes have all been applied, in order; the assignments made on behalf of jobs *)
Definition handled (tr : list event) : list nat := flat_map (fun ev => match ev with Handled j => [j] | _ => [] end) tr.
Definition assigned (tr : list event) : changes := flat_map (fun ev => match ev with SetVar v x => [(v, x)] | _ => [] end) tr.

(** ** A session in which commands are run one after the other, in one process *)
Record session := mkse { values : vars; running : option (nat * (vars -> option message)) }.
Definition happens (s : session) (ev : event) : session :=
  match ev with
  | EnteredMain f => mkse (assign_all (f (values s)) (values s)) (running s)
  | EnteredJob j f => mkse (values s) (Some (j, f))
  | Written _ =>
    match running s with
    | Some (_, f) => match f (values s) with Some (Good c) => mkse (assign_all c (values s)) (running s) | _ => s end
    | None => s
    end
  | _ => s
  end.
Definition expected (tr : list event) (e : vars) : session := fold_left happens tr (mkse e None).

(** All jobs have ended, and nothing remains to be done for them *)
Definition settled (s : state) : Prop :=
  (forall j, jobs s j = mkj Gone Void) /\ (forall j c todo gone, lst s <> Apply j c todo gone).

Definition enters (ev : event) : bool := match ev with EnteredMain _ | EnteredJob _ _ => true | _ => false end.

(** The user is patient: the next command is entered when all has settled *)
Inductive patient (settable : settable_t) (e : vars) : list event -> state -> Prop :=
| p_start : patient settable e [] (start e)
| p_step : forall tr s w ev s', patient settable e tr s -> step settable s w ev s' -> (enters ev = true -> settled s) ->
    patient settable e (tr ++ [ev]) s'.

(** ** Runs that go on for ever: at every moment one step, or none *)
Record forever (settable : settable_t) (e : vars) (at_ : nat -> state) (ev : nat -> event) : Prop := {
  fo_start : at_ 0 = start e;
  fo_step : forall n, (exists w, step settable (at_ n) w (ev n) (at_ (S n))) \/ (at_ (S n) = at_ n /\ ev n = Tau);
  (** the listener makes a step again and again *)
  fo_fair : forall n, exists m, n <= m /\ step settable (at_ m) ListenerThread (ev m) (at_ (S m)) }.

(** What happens after a state *)
Inductive later (settable : settable_t) (s : state) : list event -> state -> Prop :=
| la_none : later settable s [] s
| la_step : forall tr s' w ev s'', later settable s tr s' -> step settable s' w ev s'' -> later settable s (tr ++ [ev]) s''.
