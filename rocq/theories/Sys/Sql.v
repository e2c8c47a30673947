(** sql: when changes to the database become permanent: Sql (marcel/op/sql.py:113-198), SqlStatement and its subclasses
    (201-265), Connection (object/db.py:60-101), and how a pipeline runs an operator (pipeline.py:330-337).

    Simplifications: the database is used by this command only; what a statement does to the database is the parameter
    [exec] (None: it fails), and whether a commit succeeds the parameter [deferred] (constraints that are checked at the
    commit); that a failed statement makes the transaction unusable until the rollback is left out, since the rollback
    follows at once (151-153); connecting always succeeds. *)
From Coq Require Export List ZArith Bool Lia.
Export ListNotations.
Set Implicit Arguments.
Local Open Scope Z_scope.
Local Open Scope list_scope.

Section Sql.
Variable D : Type.                                  (* states of the database *)
Variable A : Type.                                  (* what is bound to the parameters of the statement *)
Variable exec : D -> A -> option (D * Z).           (* the new state, and the update count *)
Variable deferred : D -> bool.

(** The database driver: what is permanent, what the current transaction sees *)
Record conn := mkconn { committed : D; working : D; auto : bool; closed : bool }.
Inductive action : Type := Execute (a : A) | Commit | Rollback | Close.
Inductive result : Type := Done | Count (n : Z) | Raises.

Definition perform (c : conn) (x : action) : conn * result :=
  if closed c then (c, match x with Close => Done | _ => Raises end)
  else match x with
  | Execute a => match exec (working c) a with
                 | Some (d, n) => (mkconn (if auto c then d else committed c) d (auto c) false, Count n)
                 | None => (c, Raises)
                 end
  | Commit => if auto c || deferred (working c) then (mkconn (working c) (working c) (auto c) false, Done)
              else (mkconn (committed c) (committed c) (auto c) false, Raises)
  | Rollback => (mkconn (committed c) (committed c) (auto c) false, Done)
  | Close => (mkconn (committed c) (committed c) (auto c) true, Done)
  end.

(** The flags of the command: --autocommit, --commit N (0 if absent: 127-128), --update-counts; whether it is a select *)
Record options := mkoptions { autocommit : bool; every : Z; counts : bool; select : bool }.

(** What the rest of the pipeline does with what is sent to it: goes on, ends the command (an exception that is not an
    Exception), or raises another exception *)
Inductive response : Type := Fine | Kills | Fails.

(** How it goes on: with the next input; the command is ended and the reason reported; an exception escapes *)
Inductive outcome : Type := Continue | Killed | Escaped.

(** 215-221: the action, the new total *)
Definition commit_if_necessary (o : options) (total n : Z) : list action * Z :=
  if negb (autocommit o) && (every o >? 0) then
    if total + n >=? every o then ([Commit], 0) else ([], total + n)
  else ([], total).

(** 151-153, 160-164: roll back and end the command; if the rollback raises an exception, that one escapes *)
Definition give_up (c : conn) : list action * conn * outcome :=
  match perform c Rollback with
  | (c', Raises) => ([Rollback], c', Escaped)
  | (c', _) => ([Rollback], c', Killed)
  end.

(** 148-153 with 230-234, 242-248, 256-262 *)
Definition receive (o : options) (c : conn) (total : Z) (a : A) (r : response) : list action * conn * Z * outcome :=
  match perform c (Execute a) with
  | (c1, Count n) =>
    let '(acts, total') := if select o then ([], total) else commit_if_necessary o total n in
    let '(c2, ok) := match acts with [] => (c1, true) | _ => match perform c1 Commit with (c2, Raises) => (c2, false) | (c2, _) => (c2, true) end end in
    if ok then
      match (if select o || counts o then r else Fine) with
      | Fine => (Execute a :: acts, c2, total', Continue)
      | Kills => (Execute a :: acts, c2, total', Killed)
      | Fails => let '(l, c3, e) := give_up c2 in (Execute a :: acts ++ l, c3, total', e)
      end
    else let '(l, c3, e) := give_up c2 in (Execute a :: acts ++ l, c3, total', e)
  | (c1, _) => let '(l, c2, e) := give_up c1 in (Execute a :: l, c2, total, e)
  end.

(** 155-167.  SqlStatement.flush (211-213) does nothing: autocommit is None or True.  [r]: the flush of the next operator *)
Definition flush (c : conn) (r : response) : list action * conn * outcome :=
  let '(l, c', e) := match perform c Commit with
                     | (c1, Raises) => let '(l, c2, e) := give_up c1 in (Commit :: l, c2, e)
                     | (c1, _) => ([Commit], c1, Continue)
                     end in
  (l, c', match r with Fine => e | Kills => Killed | Fails => Escaped end).

(** The stream that reaches the operator: it ends, or the command is ended before that *)
Inductive ending : Type := End (r : response) | Cut.

Fixpoint feed (o : options) (c : conn) (total : Z) (xs : list (A * response)) : list action * conn * outcome :=
  match xs with
  | [] => ([], c, Continue)
  | (a, r) :: xs =>
    match receive o c total a r with
    | (l, c1, total', Continue) => let '(l', c2, e) := feed o c1 total' xs in (l ++ l', c2, e)
    | (l, c1, _, e) => (l, c1, e)
    end
  end.

(** 139-142: a connection *)
Definition connect (o : options) (d : D) : conn := mkconn d d (autocommit o) false.

(** pipeline.py:330-337: run, flush, and in any case cleanup (sql.py:169-170).  All the actions, and the end *)
Definition body (o : options) (d : D) (xs : list (A * response)) (e : ending) : list action * conn * outcome :=
  let '(l, c, out) := feed o (connect o d) 0 xs in
  match out, e with
  | Continue, End r => let '(l', c', out') := flush c r in (l ++ l', c', out')
  | Continue, Cut => (l, c, Killed)
  | _, _ => (l, c, out)
  end.
Definition command (o : options) (d : D) (xs : list (A * response)) (e : ending) : list action * outcome :=
  let '(l, c, out) := body o d xs e in (l ++ [Close], out).

(** Running a variable whose value is a pipeline (op/runpipeline.py:74-99): the pipeline is run (and flushed, and cleaned up)
    by [run], then the command flushes and cleans up RunPipeline, and this the pipeline again. *)
Definition stored_command (o : options) (d : D) (xs : list (A * response)) (r : response) : list action * outcome :=
  let '(l, c, out) := body o d xs (End r) in
  let (c1, _) := perform c Close in
  match out with
  | Continue => let '(l', _, out') := flush c1 r in (l ++ [Close] ++ l' ++ [Close], out')
  | _ => (l ++ [Close; Close], out)
  end.

(** What a sequence of actions leads to *)
Definition replay (c : conn) (l : list action) : conn := fold_left (fun c x => fst (perform c x)) l c.
End Sql.

(** 232, 242, 256: what is bound to the parameters: [args], the arguments given after the statement; [x], the input, if any *)
Definition bound {A : Type} (args : list A) (x : option (list A)) : list A :=
  match x with None => args | Some t => t end.
