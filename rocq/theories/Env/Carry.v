(** Variables that hold functions, modules and pipelines, in the processes that marcel starts for a command and in a
    workspace that is opened again (C66). Model only; see CarrySpec.v.

    A NestedNamespace is a dict of values, which commands use, and a Scope, which says how each value can be made again
    elsewhere (marcel/nestednamespace.py, EnvValue and its subclasses). A process that marcel starts gets the Scope only
    (marcel/env.py:103-129), and so does the file of the workspace (marcel/object/workspace.py:241-276).

    What Python does is a parameter: the record [python]. Simplifications: evaluating an expression has no effect but its
    value or an exception; what is imported is the same in every process; the text of a pipeline or function, read back, is
    what was written (C48); pickling a value gives the same value or fails; immutable variables (C25) and parameters
    with the names of variables (C23) are left out; so is the API. *)
From Coq Require Export String List Bool Arith Lia.
Export ListNotations.
Local Open Scope string_scope.
Local Open Scope list_scope.

(** A dict, in the order of insertion *)
Definition dict (A : Type) := list (string * A).
Fixpoint get {A} (x : string) (d : dict A) : option A :=
  match d with
  | [] => None
  | (y, a) :: d => if String.eqb x y then Some a else get x d
  end.
Fixpoint put {A} (x : string) (a : A) (d : dict A) : dict A :=
  match d with
  | [] => [(x, a)]
  | (y, b) :: d => if String.eqb x y then (y, a) :: d else (y, b) :: put x a d
  end.
Fixpoint del {A} (x : string) (d : dict A) : dict A :=
  match d with
  | [] => []
  | (y, b) :: d => if String.eqb x y then d else (y, b) :: del x d
  end.

(** What EnvValue.wrap asks about a value (nestednamespace.py:111-130): inspect.isbuiltin, with __module__ (which can be
    None) and __name__; inspect.ismodule, with __name__; callable; a Pipeline; anything else. *)
Inductive kind : Type :=
| KBuiltin (module : option string) (name : string) | KModule (name : string) | KCallable | KPipeline | KOther.

Record python (V : Type) := mkpython {
  kind_of : V -> kind;
  str : string -> V;
  (** What an expression evaluates to, given the variables; None: an exception (op/assign.py:60-62; nestednamespace.py:187-195) *)
  eval : string -> (string -> option V) -> option V;
  (** The pipeline with a given text; None: an exception (nestednamespace.py:205-207) *)
  parse : string -> option V;
  (** util.py:264-273 import_module, import_symbol *)
  module : string -> option V;
  symbol : string -> string -> option V;
  (** pickle, for sending to a process; dill, for the file of a workspace *)
  pickles : V -> bool;
  dills : V -> bool
}.
Arguments kind_of {V}. Arguments str {V}. Arguments eval {V}. Arguments parse {V}.
Arguments module {V}. Arguments symbol {V}. Arguments pickles {V}. Arguments dills {V}.

Section Carry.
Variable V : Type.
Variable P : python V.

(** The subclasses of EnvValue, without the cached value, which is not sent: nestednamespace.py:133-297 *)
Inductive wrapper : Type :=
| Simple (v : V)
| Module (name : string)
| CompilableFunction (source : string)
| CompilablePipeline (source : string)
| Function (module : option string) (name : string)
| Import (module : string) (symbol : option string).

(** nestednamespace.py:111-130 [wrap]; 165-167 [Compilable.assign]: None: AssertionError, the source is None. For a function
    that is then the text (None). *)
Definition wrap (v : V) (source : option string) : option wrapper :=
  match kind_of P v with
  | KBuiltin m f => Some (Function m f)
  | KModule m => Some (Module m)
  | KCallable => Some (CompilableFunction (match source with Some s => s | None => "None" end))
  | KPipeline => match source with Some s => Some (CompilablePipeline s) | None => None end
  | KOther => Some (Simple v)
  end.

(** [reconstitute] in nestednamespace.py:133-297; import_module(None) raises AttributeError. *)
Definition reconstitute (w : wrapper) (vars : string -> option V) : option V :=
  match w with
  | Simple v => Some v
  | Module m => module P m
  | CompilableFunction s => eval P s vars
  | CompilablePipeline s => parse P s
  | Function None _ => None
  | Function (Some m) f => symbol P m f
  | Import m None => module P m
  | Import m (Some s) => symbol P m s
  end.

(** The NestedNamespace: the dict itself, and the topmost Scope. *)
Record vars := mkvars { flat : dict V; top : dict wrapper }.
Definition lookup (s : vars) (x : string) : option V := get x (flat s).
(** nestednamespace.py:398-400 [assign], 406-408 [assign_import]. *)
Definition bind (x : string) (v : V) (w : wrapper) (s : vars) : vars := mkvars (put x v (flat s)) (put x w (top s)).

(** The commands that change variables: [x = text], [x = (expression)], [x = (| pipeline |)], [import m] and [import m s],
    with or without --as (importing * is importing each symbol), [env --delete x]; and the changes of PWD and DIRS by cd,
    pushd and popd. *)
Inductive action : Type :=
| AssignText (x s : string)
| AssignExpression (x s : string)
| AssignPipeline (x s : string)
| ImportAs (x m : string) (s : option string)
| Delete (x : string)
| Permanent (x : string) (v : V).

(** op/assign.py:50-76, op/import.py:92-117, object/workspace.py:132-159. A command that fails changes nothing.
    [Delete]: dict.pop (workspace.py:155) does not reach the Scope. [Permanent]: nestednamespace.py:403-404, directorystate.py:50, 71,
    107. *)
Definition act (a : action) (s : vars) : vars :=
  match a with
  | AssignText x t => match wrap (str P t) (Some t) with Some w => bind x (str P t) w s | None => s end
  | AssignExpression x t =>
      match eval P t (lookup s) with
      | Some v => match wrap v (Some t) with Some w => bind x v w s | None => s end
      | None => s
      end
  | AssignPipeline x t =>
      match parse P t with
      | Some v => match wrap v (Some t) with Some w => bind x v w s | None => s end
      | None => s
      end
  | ImportAs x m None => match module P m with Some v => bind x v (Import m None) s | None => s end
  | ImportAs x m (Some t) => match symbol P m t with Some v => bind x v (Import m (Some t)) s | None => s end
  | Delete x => mkvars (del x (flat s)) (top s)
  | Permanent x v => mkvars (put x v (flat s)) (top s)
  end.

(** nestednamespace.py:445-452 [from_persistent_state]. None: an exception. *)
Fixpoint restore (saved : dict wrapper) (s : vars) : option vars :=
  match saved with
  | [] => Some s
  | (x, w) :: r =>
      match reconstitute w (lookup s) with
      | Some v => restore r (bind x v w s)
      | None => None
      end
  end.

Definition sendable (ok : V -> bool) (w : wrapper) : bool := match w with Simple v => ok v | _ => true end.

(** The variables that every process has when it opens a workspace: env.py:132-158, and the startup script, workspace.py:248-252 *)
Variable permanent : dict V.

(** A workspace in use: the variables, and what the file has (None: the file cannot be read) *)
Record session := mksession { now : vars; file : option (dict wrapper) }.
Definition new_session : session := mksession (mkvars permanent []) (Some []).

(** workspace.py:256-269 [close], 241-254 [open]: closing, and opening again, perhaps by another process; for the default workspace, a
    restart of the shell because the startup script has changed (main.py:319-329). Close writes into the emptied file (464-467); an
    exception there is ignored (main.py:76-79). None: the workspace cannot be opened. *)
Definition close (s : session) : option (dict wrapper) :=
  if forallb (fun e => sendable (dills P) (snd e)) (top (now s)) then Some (top (now s)) else None.
Definition reopen (s : session) : option session :=
  match close s with
  | None => None
  | Some f => match restore f (mkvars permanent []) with Some v => Some (mksession v (Some f)) | None => None end
  end.

Inductive event : Type := Do (a : action) | Reopen.
Definition step (e : event) (s : session) : option session :=
  match e with
  | Do a => Some (mksession (act a (now s)) (file s))
  | Reopen => reopen s
  end.
Fixpoint run (h : list event) (s : session) : option session :=
  match h with
  | [] => Some s
  | e :: h => match step e s with Some s => run h s | None => None end
  end.

(** ** Processes *)

(** How starting a process ends: it has variables; its environment cannot be pickled, an exception in the process that starts it; it
    may not open the workspace; an exception in the new process. *)
Inductive started : Type := Started (v : vars) | NotSent | NotAllowed | Fails.

(** workspace.py:394-419 [lock_workspace], for a workspace that a live process has open. *)
Definition may_open (named : bool) (owner pid ppid : nat) : bool := negb named || Nat.eqb owner pid || Nat.eqb owner ppid.

(** env.py:103-129 [__getstate__], [__setstate__]; job.py:146-172, op/forkmanager.py:146-150. The new process opens the workspace, with
    the variables in its file if it is a named one (workspace.py:538-545: the default workspace has a file for each process), and
    then takes over those it was sent. *)
Definition child (named : bool) (owner pid ppid : nat) (f : option (dict wrapper)) (s : vars) : started :=
  if forallb (fun e => sendable (pickles P) (snd e)) (top s) then
    if may_open named owner pid ppid then
      match (if named then f else Some []) with
      | None => Fails
      | Some f =>
          match restore f (mkvars permanent []) with
          | None => Fails
          | Some v => match restore (top s) v with Some v => Started v | None => Fails end
          end
      end
    else NotAllowed
  else NotSent.

(** nestednamespace.py:413-418 [push_scope]: the parameters of a pipeline, in a scope of their own. None: AssertionError (344-346, 167). *)
Fixpoint enter (bindings : dict V) (s : vars) : option vars :=
  match bindings with
  | [] => Some s
  | (x, v) :: r => match wrap v None with Some _ => enter r (mkvars (put x v (flat s)) (top s)) | None => None end
  end.
End Carry.
Arguments AssignText {V}. Arguments AssignExpression {V}. Arguments AssignPipeline {V}. Arguments ImportAs {V}.
Arguments Delete {V}. Arguments Permanent {V}. Arguments Do {V}. Arguments Reopen {V}.
Arguments Simple {V}. Arguments Module {V}. Arguments CompilableFunction {V}. Arguments CompilablePipeline {V}.
Arguments Function {V}. Arguments Import {V}. Arguments Started {V}. Arguments NotSent {V}. Arguments NotAllowed {V}.
Arguments Fails {V}. Arguments mkvars {V}. Arguments flat {V}. Arguments top {V}. Arguments lookup {V}.
Arguments mksession {V}. Arguments now {V}. Arguments file {V}.
