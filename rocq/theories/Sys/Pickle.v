(** The content of reservoirs: marcel/picklefile.py:109-159 (one Pickler per writer, one Unpickler per reader), with
    the part of Python's pickle that matters: the memo. A Pickler writes a reference instead of an object
    it has written before, by its number in the order of memoization; the Unpickler numbers the objects it reads
    in the same way (pickle.py, opcodes MEMOIZE and BINGET; the numbering goes on from one dump or load to the next).
    Objects: integers (never memoized), strings and tuples (memoized, except the empty tuple), with their
    identity. Lists, dictionaries and instances are left out. A pickle is shown as a tree instead of a
    sequence of opcodes. *)
From Coq Require Export String ZArith Bool Lia List.
Export ListNotations.

Inductive pobj : Type :=
| OInt (z : Z)
| OStr (id : nat) (s : string)
| OTup (id : nat) (l : list pobj).

Inductive pval : Type := VInt (z : Z) | VStr (s : string) | VTup (l : list pval).

(** The value of an object. *)
Fixpoint value (o : pobj) : pval :=
  match o with
  | OInt z => VInt z
  | OStr _ s => VStr s
  | OTup _ l => VTup (map value l)
  end.

(** Pickled objects. [PGet i]: the object with number [i]. *)
Inductive pickled : Type := PInt (z : Z) | PStr (s : string) | PTup (l : list pickled) | PGet (i : nat).

Fixpoint index (id : nat) (memo : list nat) : option nat :=
  match memo with
  | [] => None
  | x :: r => if Nat.eqb x id then Some 0 else option_map S (index id r)
  end.

(** Pickler.save; the memo of the Pickler is the list of the identities of the objects, in order. *)
Fixpoint save (memo : list nat) (o : pobj) {struct o} : pickled * list nat :=
  match o with
  | OInt z => (PInt z, memo)
  | OStr id s =>
    match index id memo with
    | Some i => (PGet i, memo)
    | None => (PStr s, memo ++ [id])
    end
  | OTup id l =>
    match l with
    | [] => (PTup [], memo)
    | _ =>
      match index id memo with
      | Some i => (PGet i, memo)
      | None =>
        let '(es, memo') := (fix save_list (memo : list nat) (l : list pobj) {struct l} : list pickled * list nat :=
           match l with
           | [] => ([], memo)
           | o :: r => let '(e, memo) := save memo o in let '(es, memo) := save_list memo r in (e :: es, memo)
           end) memo l in
        (PTup es, memo' ++ [id])
      end
    end
  end.
(** Successive dumps by one writer. *)
Fixpoint save_list (memo : list nat) (l : list pobj) {struct l} : list pickled * list nat :=
  match l with
  | [] => ([], memo)
  | o :: r => let '(e, memo) := save memo o in let '(es, memo) := save_list memo r in (e :: es, memo)
  end.

(** Unpickler.load; the memo of the Unpickler is the list of the objects read. None: KeyError. *)
Fixpoint load (memo : list pval) (e : pickled) {struct e} : option (pval * list pval) :=
  match e with
  | PInt z => Some (VInt z, memo)
  | PStr s => Some (VStr s, memo ++ [VStr s])
  | PGet i => match nth_error memo i with Some v => Some (v, memo) | None => None end
  | PTup l =>
    match l with
    | [] => Some (VTup [], memo)
    | _ =>
      match (fix load_list (memo : list pval) (l : list pickled) {struct l} : option (list pval * list pval) :=
        match l with
        | [] => Some ([], memo)
        | e :: r =>
          match load memo e with
          | Some (v, memo) =>
            match load_list memo r with Some (vs, memo) => Some (v :: vs, memo) | None => None end
          | None => None
          end
        end) memo l with
      | Some (vs, memo) => Some (VTup vs, memo ++ [VTup vs])
      | None => None
      end
    end
  end.
(** Successive loads by one reader. *)
Fixpoint load_list (memo : list pval) (l : list pickled) {struct l} : option (list pval * list pval) :=
  match l with
  | [] => Some ([], memo)
  | e :: r =>
    match load memo e with
    | Some (v, memo) =>
      match load_list memo r with Some (vs, memo) => Some (v :: vs, memo) | None => None end
    | None => None
    end
  end.

(** picklefile.py:136-159, store: a new Pickler; the file is emptied first unless appending. *)
Definition store (append : bool) (rows : list pobj) (file : list pickled) : list pickled :=
  (if append then file else []) ++ fst (save_list [] rows).
(** picklefile.py:109-133, load: one Unpickler for the whole file. *)
Definition load_file (file : list pickled) : option (list pval) := option_map fst (load_list [] file).

(** A history of completed stores. *)
Fixpoint stores (h : list (bool * list pobj)) (file : list pickled) : list pickled :=
  match h with
  | [] => file
  | (a, rows) :: r => stores r (store a rows file)
  end.
