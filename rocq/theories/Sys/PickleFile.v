(** Reservoirs: who has the file open. marcel/picklefile.py, marcel/reservoir.py,
    marcel/op/store.py, marcel/op/load.py, and the running of a pipeline (pipeline.py:50-64, 313-339). *)
From Coq Require Export List Bool Arith Lia.
Export ListNotations.

Inductive mode : Type := Reading | Writing.

Section Rows.
Context {row : Type}.

(** One PickleFile object. [readers]: the dictionary _readers, whose only possible key is the path.
    [opened]: the files the operating system has open through this object, with their mode.
    [content]: the file. *)
Record pfile : Type := Pfile {
  readers : option nat;
  writer : option nat;
  opened : list (nat * mode);
  fresh : nat;
  content : list row
}.

(** picklefile.py:55-59. None: PickleFileUsageError. *)
Definition open_reader (s : pfile) : option (nat * pfile) :=
  match writer s with
  | Some _ => None
  | None => Some (fresh s, Pfile (Some (fresh s)) (writer s) ((fresh s, Reading) :: opened s) (S (fresh s)) (content s))
  end.
(** picklefile.py:61-65, 140-146: opening with mode wb empties the file. *)
Definition open_writer (append : bool) (s : pfile) : option (nat * pfile) :=
  match readers s, writer s with
  | None, None =>
    Some (fresh s, Pfile None (Some (fresh s)) ((fresh s, Writing) :: opened s) (S (fresh s)) (if append then content s else []))
  | _, _ => None
  end.
Definition drop (h : nat) (l : list (nat * mode)) : list (nat * mode) := filter (fun x => negb (Nat.eqb (fst x) h)) l.
(** picklefile.py:74-81, 101-106: closing any Reader or Writer of the object. *)
Definition close (s : pfile) : pfile :=
  match readers s with
  | Some h => Pfile None (writer s) (drop h (opened s)) (fresh s) (content s)
  | None =>
    match writer s with
    | Some h => Pfile None None (drop h (opened s)) (fresh s) (content s)
    | None => s
    end
  end.
Definition is_open (h : nat) (m : mode) (s : pfile) : bool :=
  existsb (fun x => Nat.eqb (fst x) h && match snd x, m with Reading, Reading | Writing, Writing => true | _, _ => false end) (opened s).
(** picklefile.py:148-159; None: the assertion that the file is open fails. *)
Definition write (h : nat) (x : row) (s : pfile) : option pfile :=
  if is_open h Writing s then Some (Pfile (readers s) (writer s) (opened s) (fresh s) (content s ++ [x])) else None.
(** os.unlink, picklefile.py:67-72 *)
Definition delete (s : pfile) : option pfile :=
  match readers s, writer s with
  | None, None => Some (Pfile None None (opened s) (fresh s) [])
  | _, _ => None
  end.

(** What users of the object can do, in any order. *)
Inductive act : Type := AReader | AWriter (append : bool) | AWrite (h : nat) (x : row) | AClose | ADelete.
Definition next (s : pfile) (a : act) : pfile :=
  match a with
  | AReader => match open_reader s with Some (_, s') => s' | None => s end
  | AWriter ap => match open_writer ap s with Some (_, s') => s' | None => s end
  | AWrite h x => match write h x s with Some s' => s' | None => s end
  | AClose => close s
  | ADelete => match delete s with Some s' => s' | None => s end
  end.
Definition history (s : pfile) (l : list act) : pfile := fold_left next l s.
Definition empty : pfile := Pfile None None [] 0 [].

(** ** A pipeline using this reservoir *)
(** [PStore]'s rows are what reaches it; [POther]: any other operator, whose setup may fail. *)
Inductive pop : Type := PLoad | PStore (append : bool) | POther (setup_ok : bool).
(** pipeline.py:59-62: setup of the operators, in order; an exception ends it (store.py:117-120 and load.py:100;
    PickleFileUsageError from load is not caught by load, and ends the command too). Returns the handles of the
    stores and whether setup succeeded. *)
Fixpoint setup_ops (l : list pop) (s : pfile) : pfile * bool :=
  match l with
  | [] => (s, true)
  | PLoad :: r => match open_reader s with Some (_, s') => setup_ops r s' | None => (s, false) end
  | PStore a :: r => match open_writer a s with Some (_, s') => setup_ops r s' | None => (s, false) end
  | POther ok :: r => if ok then setup_ops r s else (s, false)
  end.
(** What is closed after the run: load closes its reader at the end of its input, twice
    (picklefile.py:119-121 and load.py:106-110); every store is closed by cleanup (store.py:129-130). *)
Fixpoint cleanup_ops (l : list pop) (s : pfile) : pfile :=
  match l with
  | [] => s
  | PLoad :: r => cleanup_ops r (close (close s))
  | PStore _ :: r => cleanup_ops r (close s)
  | POther _ :: r => cleanup_ops r s
  end.
(** pipeline.py:313-339: if setup fails, cleanup is not called. [body]: writes done by the stores. *)
Definition write_all (rows : list row) (s : pfile) : pfile :=
  match writer s with
  | Some h => fold_left (fun s x => match write h x s with Some s' => s' | None => s end) rows s
  | None => s
  end.
Definition run_pipeline (l : list pop) (rows : list row) (s : pfile) : pfile * bool :=
  let '(s, ok) := setup_ops l s in
  if ok then (cleanup_ops l (write_all rows s), true) else (s, false).

End Rows.
Arguments pfile : clear implicits.
Arguments act : clear implicits.

(** Commands run in processes of their own (job.py), each with its copy of the object; the file is the same. *)
Definition procs (row : Type) := nat -> pfile row.
Definition proc_step {row} (ps : procs row) (i : nat) (a : act row) : procs row :=
  fun j => let s := next (ps i) a in
    if Nat.eqb i j then s
    else Pfile (readers (ps j)) (writer (ps j)) (opened (ps j)) (fresh (ps j)) (content s).
