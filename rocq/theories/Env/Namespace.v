(** The environment: variables, scopes of parameterized pipelines, immutability, tracking of changes
    (marcel/nestednamespace.py, marcel/object/workspace.py VarHandler, marcel/pipeline.py run_pipeline,
    marcel/main.py update_namespace). *)
From Verif.Py Require Export Val.
Local Open Scope string_scope.
Local Open Scope list_scope.

(** A Python dict with string keys, in insertion order.
    Simplification: values are opaque; EnvValue wrappers (nestednamespace.py:63-298) are the identity:
    wrap and unwrap are inverse and never fail. *)
Definition dict := list (string * val).

Fixpoint dget (d : dict) (x : string) : option val :=
  match d with
  | [] => None
  | (y, v) :: r => if String.eqb x y then Some v else dget r x
  end.

Fixpoint dset (d : dict) (x : string) (v : val) : dict :=
  match d with
  | [] => [(x, v)]
  | (y, w) :: r => if String.eqb x y then (y, v) :: r else (y, w) :: dset r x v
  end.

Fixpoint ddel (d : dict) (x : string) : dict :=
  match d with
  | [] => []
  | (y, w) :: r => if String.eqb x y then ddel r x else (y, w) :: ddel r x
  end.

Definition mem (x : string) (xs : list string) : bool := existsb (String.eqb x) xs.

Definition keys (d : dict) : list string := map fst d.

Definition dsets (d : dict) (ups : dict) : dict := fold_left (fun d kv => dset d (fst kv) (snd kv)) ups d.

(** nestednamespace.py:304-352 [Scope]: one per pipeline call, [params] being the names bound by the
    call ([Scope(env, parent, bindings)] at 415 passes the bindings dict, whose keys are the names). *)
Record scope := mkscope { params : list string; svars : dict }.

(** nestednamespace.py:368-435 [NestedNamespace]: the dict itself ([flat]), the topmost scope
    ([scopes[0]], [glob]) and the inner scopes, innermost first ([scopes[1:]] reversed). *)
Record ns := mkns { flat : dict; glob : dict; inner : list scope }.

(** nestednamespace.py:344-351 [Scope.store_item], walking up [parent]. *)
Fixpoint store_item (g : dict) (ss : list scope) (x : string) (v : val) : dict * list scope :=
  match ss with
  | [] => (dset g x v, [])
  | s :: r =>
    if mem x (params s) then (g, mkscope (params s) (dset (svars s) x v) :: r)
    else let '(g', r') := store_item g r x v in (g', s :: r')
  end.

(** nestednamespace.py:397-399 [NestedNamespace.assign] (and 374-376 [__setitem__], 404-406
    [assign_import], which differ in the wrapper only). *)
Definition assign (n : ns) (x : string) (v : val) : ns :=
  let '(g, i) := store_item (glob n) (inner n) x v in
  mkns (dset (flat n) x v) g i.

(** nestednamespace.py:402-403 [assign_permanent]: not recorded in any scope. *)
Definition assign_permanent (n : ns) (x : string) (v : val) : ns :=
  mkns (dset (flat n) x v) (glob n) (inner n).

(** nestednamespace.py:413-418 [push_scope]: a scope whose parameters are initialised to None (319-321),
    then one [__setitem__] per binding. *)
Definition push_scope (n : ns) (b : dict) : ns :=
  let sc := mkscope (keys b) (dsets [] (map (fun kv => (fst kv, VNone)) b)) in
  fold_left (fun n kv => assign n (fst kv) (snd kv)) b (mkns (flat n) (glob n) (sc :: inner n)).

(** nestednamespace.py:425-426: [super().__delitem__(var)] for each key of the popped scope; KeyError
    (the flag [false]) if it is not in the dict, which ends the loop. *)
Fixpoint unset_all (f : dict) (xs : list string) : dict * bool :=
  match xs with
  | [] => (f, true)
  | x :: r => match dget f x with
              | None => (f, false)
              | Some _ => unset_all (ddel f x) r
              end
  end.

(** nestednamespace.py:429-431: the remaining inner scopes, outermost first, are written back; the
    topmost scope ([scopes[0]]) is skipped. *)
Definition restore (f : dict) (ss : list scope) : dict :=
  fold_right (fun s f => dsets f (svars s)) f ss.

(** nestednamespace.py:420-431 [pop_scope]. The boolean is [false] when a KeyError escapes. *)
Definition pop_scope (n : ns) : ns * bool :=
  match inner n with
  | [] => (n, true)  (* cannot happen: every pop matches a push *)
  | s :: r =>
    let '(f, ok) := unset_all (flat n) (keys (svars s)) in
    if ok then (mkns (restore f r) (glob n) r, true) else (mkns f (glob n) r, false)
  end.

(** object/workspace.py:106-204 [VarHandler]. [written] is a set. *)
Record handler := mkh { nsp : ns; immutable : list string; written : list string; enforce : bool }.

Definition with_ns (h : handler) (n : ns) : handler := mkh n (immutable h) (written h) (enforce h).

(** object/workspace.py:190-195 [check_mutability]: [false] is KillCommandException. *)
Definition mutable (h : handler) (x : string) : bool := negb (enforce h && mem x (immutable h)).

(** object/workspace.py:125-131 [getvar] (with [None] for absent, before the default None is applied). *)
Definition getvar (h : handler) (x : string) : option val := dget (flat (nsp h)) x.

(** object/workspace.py:133-140 [setvar]. Deleting the file of an overwritten Reservoir is not modelled
    here (see Sys/Reservoir.v). *)
Definition setvar (h : handler) (x : string) (v : val) : handler * bool :=
  if mutable h x
  then (mkh (assign (nsp h) x v) (immutable h) (x :: written h) (enforce h), true)
  else (h, false).

(** object/workspace.py:142-145 [setvar_import]: [vars_written] is not updated. *)
Definition setvar_import (h : handler) (x : string) (v : val) : handler * bool :=
  if mutable h x then (with_ns h (assign (nsp h) x v), true) else (h, false).

(** object/workspace.py:147-157 [delvar]: [self.namespace.pop(var)] is dict.pop, so the scopes are not
    told. The KeyError for an absent variable is swallowed by the only caller (op/env.py:177-183). *)
Definition delvar (h : handler) (x : string) : handler * bool :=
  if mutable h x
  then match getvar h x with
       | None => (h, true)
       | Some _ =>
         (mkh (mkns (ddel (flat (nsp h)) x) (glob (nsp h)) (inner (nsp h))) (immutable h)
              (filter (fun y => negb (String.eqb x y)) (written h)) (enforce h), true)
       end
  else (h, false).

(** object/workspace.py:168-179 [changes]. *)
Definition changes (h : handler) : dict :=
  flat_map (fun x => match getvar h x with Some v => [(x, v)] | None => [] end) (written h).

(** What a command can do to the environment. [PRead x k]: evaluate an expression that looks up [x]
    (the rest of the command depends on the value). [PCall b p k]: run a pipeline with bindings [b]
    (pipeline.py:313-339 [run_pipeline]; also op/runpipeline.py:64-93, same push/pop around each call).
    [PFail]: any exception. *)
Inductive prog : Type :=
| PDone
| PFail
| PSet (x : string) (v : val) (k : prog)
| PImport (x : string) (v : val) (k : prog)
| PDel (x : string) (k : prog)
| PRead (x : string) (k : option val -> prog)
| PCall (b : dict) (p : prog) (k : prog).

(** Executing it: final environment, the values read in order, and whether it finished normally.
    [pop_scope] is in a [finally] (pipeline.py:337-338), so it runs on failure too; a KeyError raised by
    it is a failure of the caller. *)
Fixpoint exec (p : prog) (h : handler) : handler * list (option val) * bool :=
  match p with
  | PDone => (h, [], true)
  | PFail => (h, [], false)
  | PSet x v k =>
    match setvar h x v with (h', true) => exec k h' | (h', false) => (h', [], false) end
  | PImport x v k =>
    match setvar_import h x v with (h', true) => exec k h' | (h', false) => (h', [], false) end
  | PDel x k =>
    match delvar h x with (h', true) => exec k h' | (h', false) => (h', [], false) end
  | PRead x k =>
    let '(h', rs, ok) := exec (k (getvar h x)) h in (h', getvar h x :: rs, ok)
  | PCall b p k =>
    let '(h1, rs, ok) := exec p (with_ns h (push_scope (nsp h) b)) in
    let '(n2, popped) := pop_scope (nsp h1) in
    let h2 := with_ns h1 n2 in
    if (ok && popped)%bool
    then let '(h3, rs', ok') := exec k h2 in (h3, rs ++ rs', ok')
    else (h2, rs, false)
  end.

(** object/workspace.py:293-295 [persistent_state] and nestednamespace.py:437-441
    [to_persistent_state]: the topmost scope only. *)
Definition persistent (n : ns) : dict := glob n.

(** object/workspace.py:241-254 [open] (also env.py:100-122, the environment unpickled by the process
    of a job, main.py:367 'spawn'): the permanent variables [perm], then [from_persistent_state]
    (nestednamespace.py:443-450). *)
Definition reopen (perm : dict) (saved : dict) : ns := mkns (dsets perm saved) (dsets [] saved) [].

(** main.py:244-253 [update_namespace]: apply a job's changes. The special treatment of PWD is in
    Sys/Dirs.v. A KillCommandException ends the loop. *)
Fixpoint apply_changes (h : handler) (c : dict) : handler * bool :=
  match c with
  | [] => (h, true)
  | (x, v) :: r =>
    match setvar h x v with (h', true) => apply_changes h' r | (h', false) => (h', false) end
  end.

(** A command run as a job: job.py:63-85 [run_command_in_child], core.py:231-247 [Command.execute] with
    remote=True, main.py:244-253. The child starts from the pickled environment, with an empty
    [vars_written] (core.py:241-242), and sends its changes only when the command did not fail. *)
Definition child_of (perm : dict) (h : handler) : handler :=
  mkh (reopen perm (persistent (nsp h))) (immutable h) [] (enforce h).

Definition run_job (perm : dict) (p : prog) (h : handler) : handler :=
  let '(c, _, ok) := exec p (child_of perm h) in
  if ok then fst (apply_changes h (changes c)) else h.

(** env.py:88-99: the names made immutable at startup. The missing comma after 'HOST' makes Python
    concatenate the two literals. (The variables of the startup script are added later,
    workspace.py:252.) *)
Definition startup_immutable : list string :=
  ["BOLD"; "COLOR_SCHEME"; "Color"; "DIRS"; "HOME"; "HOSTITALIC"; "MARCEL_VERSION"; "pos"; "PROMPT";
   "PWD"; "USER"].
