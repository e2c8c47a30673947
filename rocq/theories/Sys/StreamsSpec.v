(** C83, the specification: a variable has a value, which may be a stream of its own. *)
From Verif.Sys Require Export Streams.
Local Open Scope list_scope.

Inductive content := Ordinary (v : val) | Stream (l : list val).
Definition memory := string -> option content.

Definition put (x : string) (c : content) (m : memory) : memory := upd m x (Some c).

(** store x, or store --append x: the stream of x is what arrives, after what it was.  Nothing can be appended to a value that is not a
    stream, except to None. *)
Definition stored (x : string) (append : bool) (rows : list val) (m : memory) : option memory :=
  match m x with
  | Some (Stream l) => Some (put x (Stream ((if append then l else []) ++ rows)) m)
  | Some (Ordinary VNone) | None => Some (put x (Stream rows) m)
  | Some (Ordinary _) => if append then None else Some (put x (Stream rows) m)
  end.

(** A pipeline that fails leaves in x what arrived before, except that a job cannot make x a stream.  A store to a parameter is a store to
    the stream that was passed; if none was passed, it has no effect that can be seen. *)
Definition spec1 (jobs : bool) (c : command) (m : memory) : outcome * memory :=
  match c with
  | Store x append rows f =>
    match stored x append (arrived f rows) m with
    | None => (Refused, m)
    | Some m' => match f with
                 | Done => (Quiet, m')
                 | Failed _ => (Refused, if jobs then match m x with Some (Stream _) => m' | _ => m end else m')
                 end
    end
  | StoreParam _ None append rows => (Quiet, m)
  | StoreParam _ (Some y) append rows =>
    match m y with
    | Some (Stream l) => (Quiet, put y (Stream ((if append then l else []) ++ rows)) m)
    | Some (Ordinary VNone) => (Quiet, m)
    | Some (Ordinary _) => (if append then Refused else Quiet, m)
    | None => (Refused, m)
    end
  | Load x => (match m x with Some (Stream l) => Rows l | _ => Refused end, m)
  | Assign x v => (Quiet, put x (Ordinary v) m)
  | Copy x y => match m y with Some c => (Quiet, put x c m) | None => (Refused, m) end
  | Delete x => (Quiet, upd m x None)
  end.
Fixpoint spec (jobs : bool) (cs : list command) (m : memory) : list outcome * memory :=
  match cs with
  | [] => ([], m)
  | c :: cs => let (o, m) := spec1 jobs c m in let (os, m) := spec jobs cs m in (o :: os, m)
  end.
Definition nothing : memory := fun _ => None.

(** What load would give *)
Definition shown (x : string) (s : state) : option content :=
  match vars s x with
  | Some (Plain v) => Some (Ordinary v)
  | Some (Res p) => match files s p with Some l => Some (Stream l) | None => None end
  | None => None
  end.

Definition is_stream (c : option content) : bool := match c with Some (Stream _) => true | _ => false end.

(** The commands for which this holds: a stream is not assigned to another variable; a job that fails had a stream to write to; a parameter
    that is written to has a stream *)
Definition careful1 (jobs : bool) (c : command) (m : memory) : bool :=
  match c with
  | Copy x y => negb (is_stream (m y)) || String.eqb x y
  | Store x append rows (Failed _) => negb jobs || is_stream (m x)
  | StoreParam _ y _ _ => jobs && match y with Some y => is_stream (m y) | None => false end
  | _ => true
  end.
Fixpoint careful (jobs : bool) (cs : list command) (m : memory) : bool :=
  match cs with [] => true | c :: cs => careful1 jobs c m && careful jobs cs (snd (spec1 jobs c m)) end.

(** The variable that a command assigns or deletes, and all variables it names, other than those it reads *)
Definition assigns (c : command) (x : string) : Prop :=
  match c with
  | Store y _ _ _ | Assign y _ | Copy y _ | Delete y => x = y
  | StoreParam _ _ _ _ | Load _ => False
  end.
Definition names (c : command) (x : string) : Prop :=
  match c with
  | StoreParam y z _ _ => x = y \/ Some x = z
  | _ => assigns c x
  end.
