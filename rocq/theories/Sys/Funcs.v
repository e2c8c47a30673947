(** The functions written in a command, and the processes that execute it (C60). Model only; see FuncsSpec.v.

    A function in the text of a command is a SourceFunction (marcel/function.py:68-84): its text, and the Python function
    that eval makes of it, which is not pickled (73-76) and has to be made again in the process that uses it.

    Not modelled: tuples and what the functions compute (so: every function that an operator calls for its input is
    counted as called, every pipeline argument as run); NativeFunctions and SymbolFunctions, which survive pickling; the
    API; assignments, whose function is made when needed (op/assign.py:64); functions given where no function is expected
    (timer, ps, env, ws, import, load, store). *)
From Coq Require Import List Bool Arith Lia.
Import ListNotations.

(** ** The operators with arguments that can be functions or pipelines. *)
Inductive kind : Type :=
| KMap | KSelect | KSort | KRed | KSquish | KWindow | KFilter | KCase
| KGen | KHead | KTail | KExpand | KCd | KPushd | KHistory | KBash | KLs | KRead | KSql | KUpload | KDownload | KWrite
| KFork | KRemote | KSudo | KRunPipeline | KArgs | KUnion | KIntersect | KDifference | KJoin
| KMainOther   (* pwd, popd, dirs, jobs, bg, fg, trace, exit, edit, help, env, run, import, ws *)
| KOther.      (* the others *)

(** Their arguments. *)
Inductive field : Type :=
| FFunction | FKey | FPredicate | FOverlap | FDisjoint | FCompare | FPad | FCount | FStart | FN | FPosition | FDir
| FArgs | FKwargs | FStatement | FFilename | FForkgen.

(** An argument: a function, by its position in the text, and whether the Python function has been made; or something
    else. *)
Inductive arg : Type := Const | Fun (id : nat) (ready : bool).

(** An operator: its arguments, and the pipelines among them. A pipeline: whether it has been set up
    (PipelineMarcel.State, marcel/pipeline.py:289-299), and its operators. For case, the branches are in order, and a
    pipeline more than the predicates is the default (op/case.py:151-163). For a pipeline variable, the pipeline that is
    its value (op/runpipeline.py:43). *)
Inductive op : Type := Op (k : kind) (args : list (field * arg)) (subs : list (bool * list op)).
Definition pipe : Type := bool * list op.

(** What happens: a function is used. It fails if the Python function is not there (None is not callable). *)
Record use := mkuse { used : nat; works : bool }.

(** A computation: the functions used, and its result; None when an exception ends the command. *)
Definition result (A : Type) : Type := list use * option A.
Definition ret {A} (a : A) : result A := ([], Some a).
Definition bind {A B} (r : result A) (f : A -> result B) : result B :=
  match r with
  | (us, Some a) => let '(vs, b) := f a in (us ++ vs, b)
  | (us, None) => (us, None)
  end.
Definition each {A B} (f : A -> result B) : list A -> result (list B) :=
  fix go l := match l with [] => ret [] | a :: r => bind (f a) (fun b => bind (go r) (fun bs => ret (b :: bs))) end.

(** ** Which arguments each operator makes ready or evaluates in setup, and calls when it gets input. *)

(** set_function_globals in setup: op/map.py:61, op/select.py:58, op/sort.py:63, op/red.py:158-160, op/squish.py:69,
    op/window.py:161; marcel/env.py:205-206. *)
Definition setup_makes (k : kind) (f : field) : bool :=
  match k, f with
  | KMap, FFunction | KSelect, FFunction | KSort, FKey | KRed, FFunction | KSquish, FFunction | KWindow, FPredicate => true
  | _, _ => false
  end.
(** eval_function in setup: op/gen.py:79-81, op/head.py:58, op/tail.py:59, op/expand.py:98, op/cd.py:59, op/pushd.py:62,
    op/history.py:88, op/bash.py:104, op/filenamesop.py:74 (ls and read), op/window.py:146-147, op/sql.py:129-130,
    op/upload.py:85-91, op/download.py:84-93, op/fork.py:125, op/runpipeline.py:41-42, op/write.py:134. *)
Definition setup_evaluates (k : kind) (f : field) : bool :=
  match k, f with
  | KGen, FPad | KGen, FCount | KGen, FStart | KHead, FN | KTail, FN | KExpand, FPosition | KCd, FDir | KPushd, FDir
  | KHistory, FN | KBash, FArgs | KLs, FFilename | KRead, FFilename | KWindow, FOverlap | KWindow, FDisjoint
  | KSql, FStatement | KSql, FArgs | KUpload, FDir | KUpload, FFilename | KDownload, FDir | KDownload, FFilename
  | KFork, FForkgen | KRunPipeline, FArgs | KRunPipeline, FKwargs | KWrite, FFilename => true
  | _, _ => false
  end.
(** In receive: op/map.py:64, op/select.py:61, op/sort.py:78, op/red.py:208 and 239, op/squish.py:74, op/window.py:207, op/filter.py:119,
    op/case.py:100. *)
Definition run_calls (k : kind) (f : field) : bool :=
  match k, f with
  | KMap, FFunction | KSelect, FFunction | KSort, FKey | KRed, FFunction | KSquish, FFunction | KWindow, FPredicate
  | KFilter, FCompare | KCase, FPredicate => true
  | _, _ => false
  end.
(** ensure_functions_compiled: op/gen.py:108-110, op/tail.py:71, op/head.py:66, op/sort.py:93, op/filenamesop.py:111-113,
    op/window.py:175-177, op/select.py:67, op/filter.py:126-127, op/squish.py:78-80, op/map.py:69, op/red.py:170-172,
    op/case.py:122-123. Every other operator inherits a method that does nothing (marcel/core.py:77-78). *)
Definition job_makes (k : kind) (f : field) : bool :=
  match k, f with
  | KGen, FCount | KGen, FStart | KTail, FN | KHead, FN | KSort, FKey | KLs, FFilename | KRead, FFilename
  | KWindow, FPredicate | KSelect, FFunction | KFilter, FCompare | KSquish, FFunction | KMap, FFunction | KRed, FFunction
  | KCase, FPredicate => true
  | _, _ => false
  end.
(** and which go on to their pipelines: op/union.py:79-81, op/intersect.py:82-84, op/filter.py:128, op/difference.py:108,
    op/join.py:127, op/args.py:125, op/remote.py:214. *)
Definition job_descends (k : kind) : bool :=
  match k with KUnion | KIntersect | KFilter | KDifference | KJoin | KArgs | KRemote => true | _ => false end.

(** ** The steps. *)
Definition make (a : arg) : arg := match a with Fun i _ => Fun i true | Const => Const end.
Definition make_if (b : bool) (a : arg) : arg := if b then make a else a.

(** Pickling (function.py:73-76). The value of a pipeline variable is not part of the command: it is compiled in the process
    that uses it (C48). *)
Definition pickle_arg (a : arg) : arg := match a with Fun i _ => Fun i false | Const => Const end.
Fixpoint pickle_op (o : op) : op :=
  match o with
  | Op KRunPipeline args subs => Op KRunPipeline (map (fun fa => (fst fa, pickle_arg (snd fa))) args) subs
  | Op k args subs => Op k (map (fun fa => (fst fa, pickle_arg (snd fa))) args)
                           (map (fun p => (fst p, map pickle_op (snd p))) subs)
  end.
Definition pickle (ops : list op) : list op := map pickle_op ops.

(** Calling a function: marcel/core.py:167-200; if it fails the exception ends the command. *)
Definition evaluate (a : arg) : result arg :=
  match a with
  | Fun i true => ([mkuse i true], Some a)
  | Fun i false => ([mkuse i false], None)
  | Const => ret a
  end.
Definition setup_arg (k : kind) (fa : field * arg) : result (field * arg) :=
  let '(f, a) := fa in
  if setup_evaluates k f then bind (evaluate a) (fun a => ret (f, a))
  else ret (f, make_if (setup_makes k f) a).

(** The operators that set up their pipelines in setup: op/case.py:94-95 and 131-143, op/runpipeline.py:58-62. *)
Definition sets_up (k : kind) : bool := match k with KCase | KRunPipeline => true | _ => false end.
(** PipelineMarcel.setup, pipeline.py:303-311, and PipelineExecutable.setup, 41-56. *)
Fixpoint setup_op (o : op) : result op :=
  match o with
  | Op k args subs =>
    bind (each (setup_arg k) args) (fun args' =>
    bind (if sets_up k
          then each (fun p => match p with
                              | (true, ops) => ret (true, ops)
                              | (false, ops) => bind (each setup_op ops) (fun ops' => ret (true, ops'))
                              end) subs
          else ret subs) (fun subs' =>
    ret (Op k args' subs')))
  end.
Definition setup (ops : list op) : result (list op) := each setup_op ops.
Definition setup_pipe (p : pipe) : result pipe :=
  match p with
  | (true, ops) => ret (true, ops)
  | (false, ops) => bind (setup ops) (fun ops' => ret (true, ops'))
  end.

(** ensure_functions_compiled (pipeline.py:119-121). case first processes its arguments, which sets up its pipelines, and
    then goes on to the default pipeline only: its list of pipelines is always empty (op/case.py:120-145). The fuel is the
    depth of nesting. *)
Definition default_of (args : list (field * arg)) (subs : list pipe) : option pipe :=
  if length subs =? S (length args) then Some (last subs (false, [])) else None.
Fixpoint compile (fuel : nat) (ops : list op) : result (list op) :=
  each (fun o =>
    match fuel, o with
    | O, Op k args subs => ([], None)
    | S n, Op k args subs =>
      let args' := map (fun fa => (fst fa, make_if (job_makes k (fst fa)) (snd fa))) args in
      match k with
      | KCase =>
        bind (each setup_pipe subs) (fun subs' =>
        match default_of args subs' with
        | Some (st, d) => bind (compile n d) (fun d' => ret (Op k args' (removelast subs' ++ [(st, d')])))
        | None => ret (Op k args' subs')
        end)
      | _ => if job_descends k
             then bind (each (fun p => bind (compile n (snd p)) (fun ops' => ret (fst p, ops'))) subs) (fun subs' =>
                  ret (Op k args' subs'))
             else ret (Op k args' subs)
      end
    end) ops.

Fixpoint depth (o : op) : nat :=
  match o with Op _ _ subs => S (list_max (map (fun p => list_max (map depth (snd p))) subs)) end.
Definition depths (ops : list op) : nat := list_max (map depth ops).

(** ** Execution. How an operator runs its pipelines: case and a pipeline variable hand over their input to a pipeline that
    has been set up (op/case.py:104-105, op/runpipeline.py:66-79); fork, remote and sudo have it run by another process, to
    which it is pickled (op/forkmanager.py:61-68 and 149; op/remote.py:139 and bin/farcel.py:96-98; op/sudo.py:104); the
    others run it here (run_pipeline, pipeline.py:313-341; op/union.py:73, op/intersect.py:107, op/filter.py:132-141,
    op/difference.py:83, op/join.py:110, op/args.py:87 and 99). *)
Inductive how : Type := SetUp | Elsewhere | Here.
Definition how_run (k : kind) : how :=
  match k with
  | KCase | KRunPipeline => SetUp
  | KFork | KRemote | KSudo => Elsewhere
  | _ => Here
  end.

(** [happens ops u]: u can happen when the operators, already set up, are run. (A pipeline that is run more than once is set
    up more than once, with functions that are ready then: this adds no failures.) *)
Inductive happens : list op -> use -> Prop :=
| happens_call : forall ops k args subs f i r,
    In (Op k args subs) ops -> In (f, Fun i r) args -> run_calls k f = true -> happens ops (mkuse i r)
| happens_set_up : forall ops k args subs st sub u,
    In (Op k args subs) ops -> how_run k = SetUp -> In (st, sub) subs -> happens sub u -> happens ops u
| happens_here_setup : forall ops k args subs p u,
    In (Op k args subs) ops -> how_run k = Here -> In p subs -> In u (fst (setup_pipe p)) -> happens ops u
| happens_here : forall ops k args subs p st sub u,
    In (Op k args subs) ops -> how_run k = Here -> In p subs -> snd (setup_pipe p) = Some (st, sub) -> happens sub u ->
    happens ops u
| happens_elsewhere_setup : forall ops k args subs st p u,
    In (Op k args subs) ops -> how_run k = Elsewhere -> In (st, p) subs -> In u (fst (setup (pickle p))) -> happens ops u
| happens_elsewhere : forall ops k args subs st p sub u,
    In (Op k args subs) ops -> how_run k = Elsewhere -> In (st, p) subs -> snd (setup (pickle p)) = Some sub ->
    happens sub u -> happens ops u.

(** Running a pipeline: pipeline.py:313-341. *)
Definition running (ops : list op) (u : use) : Prop :=
  In u (fst (setup ops)) \/ exists ops', snd (setup ops) = Some ops' /\ happens ops' u.

(** A command of a script (marcel/main.py:130-131), as parsed. *)
Definition in_script (ops : list op) (u : use) : Prop := running ops u.
(** A command that is run by another process: marcel/job.py:63-68. *)
Definition in_job (ops : list op) (u : use) : Prop :=
  let ops := pickle ops in
  In u (fst (compile (depths ops) ops)) \/ exists ops', snd (compile (depths ops) ops) = Some ops' /\ running ops' u.
(** A command typed at the prompt: main.py:211-215 and pipeline.py:357-358. run_in_main_process is redefined by op/map.py:66,
    op/cd.py:87, op/pushd.py:93, op/history.py:114 and the operators of KMainOther. *)
Definition in_main (k : kind) : bool := match k with KMap | KCd | KPushd | KHistory | KMainOther => true | _ => false end.
Definition at_prompt (ops : list op) (u : use) : Prop :=
  match ops with
  | Op k _ _ :: _ => if in_main k then in_script ops u else in_job ops u
  | [] => False
  end.
