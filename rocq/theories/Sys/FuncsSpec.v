(** Where the functions of a command work (C60): what is written in a command, and a table of the places where a function
    can be used. *)
From Coq Require Import List Bool Arith.
From Verif.Sys Require Export Funcs.
Import ListNotations.

(** A command as the parser leaves it: every function has been compiled (marcel/parser.py:372-373), nothing has been set up,
    and a case has at most one pipeline more than predicates. *)
Inductive parsed : op -> Prop :=
| parsed_op : forall k args subs,
    (forall f i r, In (f, Fun i r) args -> r = true) ->
    (k = KCase -> length subs = length args \/ length subs = S (length args)) ->
    (forall st sub, In (st, sub) subs -> st = false) ->
    (forall st sub o, In (st, sub) subs -> In o sub -> parsed o) ->
    parsed (Op k args subs).

(** Function i is written in argument f of an operator k, inside the pipelines of the operators of the path, the outermost
    first. For each of these: whether it is the default pipeline of a case. *)
Definition is_default (k : kind) (args : list (field * arg)) (n : nat) : bool :=
  match k with KCase => n =? length args | _ => false end.
Inductive written : list op -> list (kind * bool) -> kind -> field -> nat -> Prop :=
| written_here : forall ops k args subs f i r,
    In (Op k args subs) ops -> In (f, Fun i r) args -> written ops [] k f i
| written_inside : forall ops k args subs n st sub path k' f i,
    In (Op k args subs) ops -> nth_error subs n = Some (st, sub) -> written sub path k' f i ->
    written ops ((k, is_default k args n) :: path) k' f i.

(** The arguments that are applied to each tuple, and those that are evaluated once. *)
Definition applied : list (kind * field) :=
  [(KMap, FFunction); (KSelect, FFunction); (KSort, FKey); (KRed, FFunction); (KSquish, FFunction); (KWindow, FPredicate);
   (KFilter, FCompare); (KCase, FPredicate)].
Definition evaluated : list (kind * field) :=
  [(KGen, FPad); (KGen, FCount); (KGen, FStart); (KHead, FN); (KTail, FN); (KExpand, FPosition); (KCd, FDir); (KPushd, FDir);
   (KHistory, FN); (KBash, FArgs); (KLs, FFilename); (KRead, FFilename); (KWindow, FOverlap); (KWindow, FDisjoint);
   (KSql, FStatement); (KSql, FArgs); (KUpload, FDir); (KUpload, FFilename); (KDownload, FDir); (KDownload, FFilename);
   (KFork, FForkgen); (KRunPipeline, FArgs); (KRunPipeline, FKwargs); (KWrite, FFilename)].

(** These work in all places. *)
Definition everywhere : list (kind * field) :=
  [(KMap, FFunction); (KSelect, FFunction); (KSort, FKey); (KRed, FFunction); (KSquish, FFunction); (KWindow, FPredicate)].
(** These also work in a command typed at the prompt. *)
Definition prompt_too : list (kind * field) :=
  [(KGen, FCount); (KGen, FStart); (KHead, FN); (KTail, FN); (KLs, FFilename); (KRead, FFilename);
   (KFilter, FCompare); (KCase, FPredicate)].

(** The places: a script, or the value of a pipeline variable; a command typed at the prompt and run as a job; the default
    pipeline of a case in such a command; another process, or a branch of such a case. *)
Inductive place : Type := Script | Prompt | PromptDefault | Process.
Definition usable (pl : place) (k : kind) (f : field) : Prop :=
  In (k, f) everywhere \/
  match pl with
  | Script => True
  | Prompt => In (k, f) prompt_too
  | PromptDefault => In (k, f) [(KFilter, FCompare); (KCase, FPredicate)]
  | Process => False
  end.
(** From a place to the pipelines of an operator there. *)
Definition enter (pl : place) (kd : kind * bool) : place :=
  match fst kd with
  | KRunPipeline => Script
  | KFork | KRemote | KSudo => Process
  | k =>
    match pl with
    | Script => Script
    | Process => Process
    | Prompt | PromptDefault =>
      match k with
      | KUnion | KIntersect | KFilter | KDifference | KJoin | KArgs => Prompt
      | KCase => if snd kd then PromptDefault else Process
      | _ => Process
      end
    end
  end.
Definition along (pl : place) (path : list (kind * bool)) : place := fold_left enter path pl.

(** Every function of the command, in an argument that is used, is in a place where it can be used. *)
Definition all_usable (pl : place) (ops : list op) : Prop :=
  forall path k f i, written ops path k f i -> In (k, f) (applied ++ evaluated) -> usable (along pl path) k f.

(** No case inside a remote. *)
Inductive caseless : op -> Prop :=
| caseless_op : forall k args subs, k <> KCase ->
    (forall st sub o, In (st, sub) subs -> In o sub -> caseless o) -> caseless (Op k args subs).
Inductive remotes_caseless : op -> Prop :=
| remotes_caseless_op : forall k args subs,
    (forall st sub o, In (st, sub) subs -> In o sub -> remotes_caseless o) ->
    (k = KRemote -> forall st sub o, In (st, sub) subs -> In o sub -> caseless o) ->
    remotes_caseless (Op k args subs).
