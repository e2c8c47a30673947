(** Running a pipeline on other hosts (remote, @) and as another user (sudo): marcel/op/remote.py, marcel/op/sudo.py,
    bin/farcel.py, and the hosts of a cluster, marcel/object/cluster.py.  What happens between the processes that
    talk to the hosts and marcel itself is in Fork.v.

    Simplifications:
    - What the pipeline does on the host is given: its outputs, in order, and how it ended.
    - The contents of values are elements of a type V.  A value may be an object (with an identity) that the pipeline
      changes between two outputs; objects do not contain one another.
    - The standard output of the remote process is a sequence of pickles and pieces of printed text.  Text is something the
      unpickler fails on (most text is: the first character is an instruction to it, and the end of a line is none).
    - A value that cannot be pickled leaves nothing in the output. *)
From Verif.Sys Require Export Fork.
From Coq Require Export List Bool Arith Lia.
Export ListNotations.

Section Values.
Context {V : Type}.

(** A component of a tuple: a value, or an object with what it contains at the moment. *)
Inductive cell := Value (v : V) | Object (id : nat) (v : V).

(** One thing the pipeline does on the host: output a tuple (or list), output an Error, print a line, output something that
    cannot be pickled. *)
Inductive act := Row (is_list : bool) (cells : list cell) | Err (message : V) | Print | Unpicklable (message : V).
(** How the output was cut, if the connection was lost (or the process killed): after the first [k] items, perhaps in the middle of the
    next *)
Definition cut := option (nat * bool).

(** An item of the standard output of farcel: a pickle, in which an object that was pickled before is a reference to what
    was sent then (pickle's memo, which lasts as long as the Pickler, farcel.py:68), or text, or a piece of a pickle. *)
Inductive pcell := PValue (v : V) | PDefine (id : nat) (v : V) | PRefer (id : nat).
Inductive item := PRow (is_list : bool) (cells : list pcell) | PErr (message : V) | Text | Piece.

(** pickle: save, with memo (the identities of the objects saved so far) *)
Fixpoint dump_cells (memo : list nat) (cs : list cell) : list nat * list pcell :=
  match cs with
  | [] => (memo, [])
  | Value v :: cs => let '(m, ps) := dump_cells memo cs in (m, PValue v :: ps)
  | Object o v :: cs =>
      if existsb (Nat.eqb o) memo
      then let '(m, ps) := dump_cells memo cs in (m, PRefer o :: ps)
      else let '(m, ps) := dump_cells (o :: memo) cs in (m, PDefine o v :: ps)
  end.

(** farcel.py:64-87, PickleOutput.  Returns the items, and the exception that stopped the pipeline, if any. *)
Fixpoint output (memo : list nat) (acts : list act) : list item * option V :=
  match acts with
  | [] => ([], None)
  | Row l cs :: acts => let '(m, ps) := dump_cells memo cs in let '(is, e) := output m acts in (PRow l ps :: is, e)
  | Err e :: acts => let '(is, e') := output memo acts in (PErr e :: is, e')
  | Print :: acts => let '(is, e) := output memo acts in (Text :: is, e)
  | Unpicklable e :: _ => ([], Some e)
  end.

(** farcel.py:100-113, PipelineRunner.run: an exception (of the pipeline, or from pickling) is output as an Error, the last thing. *)
Definition all_output (acts : list act) (raised : option V) : list item :=
  let '(is, e) := output [] acts in
  is ++ match e with
        | Some m => [PErr m]
        | None => match raised with Some m => [PErr m] | None => [] end
        end.
Definition farcel (acts : list act) (raised : option V) (c : cut) : list item :=
  let is := all_output acts raised in
  match c with
  | None => is
  | Some (k, middle) => firstn k is ++ (if middle then [Piece] else [])
  end.

(** pickle: load, with the memo of the Unpickler; None: an exception *)
Definition remember := list (nat * V).
Fixpoint recall (o : nat) (m : remember) : option V :=
  match m with [] => None | (p, v) :: m => if Nat.eqb o p then Some v else recall o m end.
Fixpoint load_cells (m : remember) (ps : list pcell) : option (remember * list V) :=
  match ps with
  | [] => Some (m, [])
  | PValue v :: ps => match load_cells m ps with Some (m, vs) => Some (m, v :: vs) | None => None end
  | PDefine o v :: ps => match load_cells ((o, v) :: m) ps with Some (m, vs) => Some (m, v :: vs) | None => None end
  | PRefer o :: ps =>
      match recall o m with
      | Some v => match load_cells m ps with Some (m, vs) => Some (m, v :: vs) | None => None end
      | None => None
      end
  end.

(** What is loaded: a tuple or list, or an Error *)
Inductive loaded := LRow (is_list : bool) (vs : list V) | LErr (message : V).
(** The loop of remote.py:159-167 (and sudo.py:123-127): what is loaded until the end, and whether the end was the end of the
    file (true) or another exception. *)
Fixpoint load (m : remember) (is : list item) : list loaded * bool :=
  match is with
  | [] => ([], true)
  | PRow l ps :: is =>
      match load_cells m ps with
      | Some (m, vs) => let '(ls, b) := load m is in (LRow l vs :: ls, b)
      | None => ([], false)
      end
  | PErr e :: is => let '(ls, b) := load m is in (LErr e :: ls, b)
  | Text :: _ => ([], false)
  | Piece :: _ => ([], false)
  end.

(** ** remote *)
(** What RunRemote and LabelThread send to marcel (remote.py:95-100, 159-170) from host [h]: a tuple or list with the host put
    before it, or an Error that has the host as its label. *)
Inductive message := MRow (is_list : bool) (host : nat) (vs : list V) | MErr (host : nat) (message : V).
Definition label (h : nat) (l : loaded) : message := match l with LRow b vs => MRow b h vs | LErr e => MErr h e end.
Definition run_remote (h : nat) (acts : list act) (raised : option V) (c : cut) : list message :=
  map (label h) (fst (load [] (farcel acts raised c))).

(** What the operator after remote is given. ForkWorker.consume_input (forkmanager.py:169-180) sends whatever it gets as a
    value; what is neither a tuple nor a list becomes the only component of a tuple (core.py:96-104). *)
Inductive component := Host (h : nat) | Content (v : V) | AnError (label : option nat) (message : V).
Inductive received := Received (is_list : bool) (components : list component) | ReceivedError (label : option nat) (message : V).
Definition consume (m : message) : received :=
  match m with
  | MRow b h vs => Received b (Host h :: map Content vs)
  | MErr h e => Received false [AnError (Some h) e]
  end.

(** ** sudo *)
(** sudo.py:96-127: what is received from sudo, and whether it ended normally. An Error is sent as a value. *)
Definition sudo_value (l : loaded) : received :=
  match l with LRow b vs => Received b (map Content vs) | LErr e => Received false [AnError None e] end.
Definition sudo_run (acts : list act) (raised : option V) (c : cut) : list received * bool :=
  let '(ls, b) := load [] (farcel acts raised c) in (map sudo_value ls, b).
End Values.

Arguments cell : clear implicits. Arguments act : clear implicits.
Arguments item : clear implicits. Arguments message : clear implicits. Arguments received : clear implicits.
Arguments component : clear implicits. Arguments pcell : clear implicits. Arguments loaded : clear implicits. Arguments remember : clear implicits.

(** Sudo.setup, sudo.py:80-87: takes the pipeline out of the arguments.  An argument is a flag, or a pipeline.
    util.string_value and the variables of the environment are not modelled: a flag is the name of no pipeline (pipeline.py:256-262). *)
Inductive sudo_arg (P : Type) := Flag (f : nat) | Pipe (p : P).
Arguments Flag {P}. Arguments Pipe {P}.
Definition sudo_setup {P} (args : list (sudo_arg P)) : list (sudo_arg P) * option P :=
  match rev args with
  | [] => ([], None)                          (* Missing pipeline *)
  | Pipe p :: r => (rev r, Some p)
  | Flag _ :: r => (rev r, None)              (* The variable ... is not bound to a pipeline *)
  end.
(** The command is run [n] times: the pipelines that are executed, with the flags; None when it fails.  The operator and its copies
    have the same list of arguments (core.py:133-136). *)
Fixpoint sudo_times {P} (n : nat) (args : list (sudo_arg P)) : list (option (P * list (sudo_arg P))) :=
  match n with
  | 0 => []
  | S n => let '(args', p) := sudo_setup args in option_map (fun p => (p, args')) p :: sudo_times n args'
  end.
