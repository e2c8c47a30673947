(** Streams kept in variables: store, load, and assigning and deleting the variables, in a session (op/store.py, op/load.py,
    object/workspace.py, reservoir.py, locations.py). *)
From Coq Require Export List String Bool Arith Lia.
From Verif.Py Require Export Val.
Import ListNotations.
Local Open Scope list_scope.

(** The value of a variable: a Reservoir, of which only the path matters (picklefile.py:39-40 __eq__), or anything else.  A path of the
    workspace is given by the name of the variable in it: locations.py:143-148 [data_ws_res]. *)
Inductive value := Plain (v : val) | Res (path : string).

(** The variables of the shell, and the files in the directory of the reservoirs.  What is in a file is given as the list of tuples that
    were written to it: Sys/PickleFile.v and Sys/Pickle.v have the rest. *)
Record state := mks { vars : string -> option value; files : string -> option (list val) }.

Definition upd {A} (f : string -> A) (x : string) (a : A) : string -> A := fun y => if String.eqb y x then a else f y.
Definition same (a b : value) : bool := match a, b with Res p, Res q => String.eqb p q | _, _ => false end.

(** picklefile.py:67-72 [ensure_deleted]; no pipeline is reading or writing *)
Definition unlink (p : string) (s : state) : state := mks (vars s) (upd (files s) p None).

(** workspace.py:133-140 [setvar] *)
Definition setvar (x : string) (v : value) (s : state) : state :=
  let s := match vars s x with
           | Some (Res p) => if same v (Res p) then s else unlink p s
           | _ => s
           end in
  mks (upd (vars s) x (Some v)) (files s).

(** workspace.py:147-157 [delvar], called by op/env.py:177-183; a variable that does not exist is no error there *)
Definition delvar (x : string) (s : state) : state :=
  match vars s x with
  | Some (Res p) => unlink p (mks (upd (vars s) x None) (files s))
  | Some (Plain _) => mks (upd (vars s) x None) (files s)
  | None => s
  end.

(** op/store.py:100-113 [setup]: the reservoir that is written, given the value that the name has; None: the command is refused *)
Definition target (x : string) (append : bool) (v : option value) : option string :=
  match v with
  | Some (Res p) => Some p
  | Some (Plain VNone) | None => Some x
  | Some (Plain _) => if append then None else Some x
  end.

(** store.py:117-127, picklefile.py:140-159: opening the file, and writing *)
Definition write (p : string) (append : bool) (rows : list val) (s : state) : state :=
  let old := if append then match files s p with Some l => l | None => [] end else [] in
  mks (vars s) (upd (files s) p (Some (old ++ rows))).

(** How the pipeline ends: normally, or with a failure, or killed, after some of its output has reached the file (all of what was sent, if
    it was not killed) *)
Inductive fate := Done | Failed (k : nat).
Definition arrived (f : fate) (rows : list val) : list val := match f with Done => rows | Failed k => firstn k rows end.

Inductive outcome := Quiet | Refused | Rows (l : list val).

(** [jobs]: the pipeline runs in a process of its own (main.py:211-215), as in an interactive session; otherwise in the main process, as in
    a script.  What a job changes is sent to the shell, if it does not fail (job.py:63-85, main.py:242-252). *)
Definition store (jobs : bool) (x : string) (append : bool) (rows : list val) (f : fate) (s : state) : outcome * state :=
  match target x append (vars s x) with
  | None => (Refused, s)
  | Some p =>
    let inside := write p append (arrived f rows) (setvar x (Res p) s) in
    if jobs
    then match f with
         | Done => (Quiet, setvar x (Res p) (mks (vars s) (files inside)))
         | Failed _ => (Refused, mks (vars s) (files inside))
         end
    else (match f with Done => Quiet | Failed _ => Refused end, inside)
  end.

(** store in a pipeline, where the name is that of a parameter whose value is that of the variable [y] when the pipeline is called, or that
    has no argument (op/runpipeline.py:64-78).  The assignment of store.py:112 is to the parameter (nestednamespace.py:337-343), and is gone afterwards.  In
    an interactive session, so that the variables of the shell stay as they are. *)
Definition store_param (x : string) (y : option string) (append : bool) (rows : list val) (s : state) : outcome * state :=
  match match y with
        | None => target x append (Some (Plain VNone))
        | Some y => match vars s y with Some v => target x append (Some v) | None => None end
        end with
  | None => (Refused, s)
  | Some p => (Quiet, mks (vars s) (files (write p append rows s)))
  end.

(** op/load.py:82-110; a file that does not exist: FileNotFoundError (picklefile.py:113) *)
Definition load (x : string) (s : state) : outcome * state :=
  match vars s x with
  | Some (Res p) => match files s p with Some l => (Rows l, s) | None => (Refused, s) end
  | _ => (Refused, s)
  end.

(** x = (value); x = (y), op/assign.py:64-72, of a variable that exists; env -d x *)
Inductive command :=
| Store (x : string) (append : bool) (rows : list val) (f : fate)
| StoreParam (x : string) (y : option string) (append : bool) (rows : list val)
| Load (x : string)
| Assign (x : string) (v : val)
| Copy (x y : string)
| Delete (x : string).

Definition run1 (jobs : bool) (c : command) (s : state) : outcome * state :=
  match c with
  | Store x append rows f => store jobs x append rows f s
  | StoreParam x y append rows => store_param x y append rows s
  | Load x => load x s
  | Assign x v => (Quiet, setvar x (Plain v) s)
  | Copy x y => match vars s y with Some v => (Quiet, setvar x v s) | None => (Refused, s) end
  | Delete x => (Quiet, delvar x s)
  end.
Fixpoint run (jobs : bool) (cs : list command) (s : state) : list outcome * state :=
  match cs with
  | [] => ([], s)
  | c :: cs => let (o, s) := run1 jobs c s in let (os, s) := run jobs cs s in (o :: os, s)
  end.

Definition empty : state := mks (fun _ => None) (fun _ => None).

(** The end of a session in the default workspace, workspace.py:524-536: the files of the reservoirs that variables have are removed, and
    these files stay.  (A named workspace keeps its variables, C46, and all files.) *)
Definition left_behind (s : state) (p : string) : Prop := files s p <> None /\ forall x, vars s x <> Some (Res p).
