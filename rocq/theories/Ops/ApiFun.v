(** Pipelines given to args and case in the Python API: marcel/pipeline.py:363-520, op/args.py, op/case.py, op/redirect.py.

    Operators are objects in memory.  Setup links them by their field receiver; what is sent follows these links. *)
From Coq Require Export List Bool Arith Lia.
From Verif.Py Require Export Val.
Import ListNotations.
Local Open Scope list_scope.

(** An operator other than those below: what it sends when it is the first one (run), what it sends for a tuple, given those received since
    setup, what it sends at the end, and whether its setup raises KillCommandException.  Simplification: Errors are values like others;
    operators that are not reset by setup (C22) are left out. *)
Record behaviour := mkb {
  on_run : list val;
  on_receive : list val -> val -> list val;
  on_flush : list val -> list val;
  bad_setup : bool }.
(** op/redirect.py:20-33: everything is sent on by the operator that has the pipeline as argument *)
Inductive kind := Plain (b : behaviour) | Redirect.

(** [next]: the next new object; [cells]: the OpLists; [out]: what the operator with the pipeline argument has sent *)
Record mem := mkm {
  next : nat;
  kinds : nat -> kind;
  receiver : nat -> option nat;
  hist : nat -> list val;
  cells : list (list nat);
  out : list val }.
Definition set {A : Type} (f : nat -> A) (i : nat) (x : A) : nat -> A := fun j => if Nat.eqb j i then x else f j.
Definition set_receiver (m : mem) (i : nat) (r : option nat) : mem := mkm (next m) (kinds m) (set (receiver m) i r) (hist m) (cells m) (out m).
Definition set_hist (m : mem) (i : nat) (h : list val) : mem := mkm (next m) (kinds m) (receiver m) (set (hist m) i h) (cells m) (out m).
Definition set_cells (m : mem) (c : list (list nat)) : mem := mkm (next m) (kinds m) (receiver m) (hist m) c (out m).
Definition emit (m : mem) (x : val) : mem := mkm (next m) (kinds m) (receiver m) (hist m) (cells m) (out m ++ [x]).
Definition new_op (m : mem) (k : kind) : nat * mem :=
  (next m, mkm (S (next m)) (set (kinds m) (next m) k) (set (receiver m) (next m) None) (set (hist m) (next m) []) (cells m) (out m)).
Fixpoint new_ops (m : mem) (bs : list behaviour) : list nat * mem :=
  match bs with
  | [] => ([], m)
  | b :: bs => let (i, m) := new_op m (Plain b) in let (l, m) := new_ops m bs in (i :: l, m)
  end.

(** ** Sending: core.py:52-60 [send], 96-104 [receive_input]; 65-67, 124-125 [flush].  [n]: the depth of the stack; [None]: RecursionError *)
Definition send_all (rc : mem -> nat -> val -> option mem) (r : option nat) : list val -> mem -> option mem :=
  fix go xs m :=
    match xs with
    | [] => Some m
    | x :: xs => match r with
                 | None => Some m
                 | Some j => match rc m j x with Some m => go xs m | None => None end
                 end
    end.
Fixpoint receives (n : nat) (m : mem) (i : nat) (x : val) : option mem :=
  match n with
  | 0 => None
  | S n =>
    match kinds m i with
    | Redirect => Some (emit m x)
    | Plain b => send_all (receives n) (receiver m i) (on_receive b (hist m i) x) (set_hist m i (hist m i ++ [x]))
    end
  end.
Fixpoint flush (n : nat) (m : mem) (i : nat) : option mem :=
  match n with
  | 0 => None
  | S n =>
    match (match kinds m i with
           | Redirect => Some m
           | Plain b => send_all (receives n) (receiver m i) (on_flush b (hist m i)) m
           end) with
    | None => None
    | Some m => match receiver m i with None => Some m | Some j => flush n m j end
    end
  end.

(** ** pipeline.py:46-64 [setup]: the links, then setup of each operator ([false]: KillCommandException).  (Simplification: that an operator
    must, or must not, be the first one is not checked.) *)
Fixpoint link (l : list nat) (m : mem) : mem :=
  match l with
  | [] => m
  | i :: l => link l (match l with [] => m | j :: _ => set_receiver m i (Some j) end)
  end.
Fixpoint setups (l : list nat) (m : mem) : mem * bool :=
  match l with
  | [] => (m, true)
  | i :: l =>
    match kinds m i with
    | Plain b => if bad_setup b then (m, false) else setups l (set_hist m i [])
    | Redirect => setups l m
    end
  end.

(** ** PipelineFunction (pipeline.py:408-517) *)
(** The function: its parameters, its other local variables, and what it does: it makes a new OpList, or returns one that exists *)
Inductive call := New (b : behaviour) (bs : list behaviour) | Old (c : nat).
Record fn := mkf { f_params : nat; f_locals : nat; f_call : list val -> call }.
(** [custom]: customizations.ops; [exe]: executable *)
Record pipefun := mkp { function : fn; custom : list nat; exe : option (list nat) }.

(** 446-447: co_varnames has the local variables, too *)
Definition n_parameters (f : fn) : nat := f_params f + f_locals f.

Fixpoint replace {A : Type} (n : nat) (x : A) (l : list A) : list A :=
  match l, n with
  | [], _ => []
  | _ :: l, 0 => x :: l
  | y :: l, S n => y :: replace n x l
  end.
(** 151-162 [__or__]: the left operand is changed *)
Definition or_op (m : mem) (c i : nat) : mem := set_cells m (replace c (nth c (cells m) [] ++ [i]) (cells m)).
Fixpoint or_ops (m : mem) (c : nat) (l : list nat) : mem := match l with [] => m | i :: l => or_ops (or_op m c i) c l end.

(** 501-517 [create_executable]; [None]: TypeError, the function is called with too many arguments *)
Definition create (p : pipefun) (m : mem) (args : list val) : option (list nat * mem) :=
  match exe p with
  | Some l => Some (l, m)
  | None =>
    if Nat.eqb (length args) (f_params (function p)) then
      let (c, m) := match f_call (function p) args with
                    | Old c => (c, m)
                    | New b bs => let (l, m) := new_ops m (b :: bs) in (length (cells m), set_cells m (cells m ++ [l]))
                    end in
      let m := or_ops m c (custom p) in Some (nth c (cells m) [], m)
    else None
  end.

Inductive ending := Normal | Killed | TypeError | RecursionError.
(** What the first operator sends by itself: core.py:109-119 *)
Definition runs_first (m : mem) (i : nat) : list val := match kinds m i with Plain b => on_run b | Redirect => [] end.

(** 449-465 [run_pipeline].  The executable is forgotten unless setup fails. *)
Definition run_pipeline (limit : nat) (p : pipefun) (m : mem) (args : list val) : mem * pipefun * ending :=
  match create p m args with
  | None => (m, p, TypeError)
  | Some (l, m) =>
    match l with
    | [] => (m, p, TypeError)
    | i :: _ =>
      match setups l (link l m) with
      | (m, false) => (m, mkp (function p) (custom p) (Some l), Killed)
      | (m, true) =>
        let p := mkp (function p) (custom p) None in
        match send_all (receives limit) (receiver m i) (runs_first m i) m with
        | None => (m, p, RecursionError)
        | Some m => match flush limit m i with None => (m, p, RecursionError) | Some m => (m, p, Normal) end
        end
      end
    end
  end.

(** ** args (op/args.py:78-131) *)
Fixpoint args_receive (limit : nat) (all : bool) (p : pipefun) (m : mem) (pending xs : list val) : mem * pipefun * list val * ending :=
  match xs with
  | [] => (m, p, pending, Normal)
  | x :: xs =>
    let pending := pending ++ [x] in
    if negb all && Nat.eqb (length pending) (n_parameters (function p)) then
      match run_pipeline limit p m pending with
      | (m, p, Normal) => args_receive limit all p m [] xs
      | (m, p, e) => (m, p, [], e)
      end
    else args_receive limit all p m pending xs
  end.
Definition args_flush (limit : nat) (all : bool) (p : pipefun) (m : mem) (pending : list val) : mem * pipefun * ending :=
  match pending with
  | [] => (m, p, Normal)
  | _ => run_pipeline limit p m (if all then [VList pending] else pending ++ repeat VNone (n_parameters (function p) - length pending))
  end.
(** 112-120 [check_args] *)
Definition args_ok (all : bool) (p : pipefun) : bool :=
  let n := n_parameters (function p) in if all then Nat.eqb n 1 else negb (Nat.eqb n 0).
(** 122-123 [customize_pipelines]; pipeline.py:479-483 [append_immutable], which changes the pipeline; 108-116 *)
Definition customize (p : pipefun) (m : mem) : pipefun * mem :=
  let (r, m) := new_op m Redirect in
  (mkp (function p) (custom p ++ [r]) (match exe p with Some l => Some (l ++ [r]) | None => None end),
   match exe p with Some (i :: l) => set_receiver m (last (i :: l) i) (Some r) | _ => m end).

(** gather(xs | args(f)), xs being what the operators before args send *)
Definition args_run (limit : nat) (all : bool) (p : pipefun) (m : mem) (xs : list val) : mem * pipefun * ending :=
  if args_ok all p then
    let (p, m) := customize p m in
    match args_receive limit all p m [] xs with
    | (m, p, pending, Normal) => args_flush limit all p m pending
    | (m, p, _, e) => (m, p, e)
    end
  else (m, p, Killed).

(** The same pipeline is run again and again: what is delivered each time, and how it ends *)
Fixpoint args_runs (limit : nat) (all : bool) (p : pipefun) (m : mem) (xss : list (list val)) : list (list val * ending) :=
  match xss with
  | [] => []
  | xs :: xss =>
    let '(m', p, e) := args_run limit all p m xs in (skipn (length (out m)) (out m'), e) :: args_runs limit all p m' xss
  end.

(** ** case in the API (op/case.py:92-117, 125-175): PipelineOpList.setup does nothing (pipeline.py:377-378).  A branch: its condition, its
    operators *)
Definition branch := ((val -> bool) * (behaviour * list behaviour))%type.
(** The operators are made when the command is written; customize_pipelines appends Redirect (case.py:165-172, pipeline.py:108-116) *)
Fixpoint case_make (bs : list branch) (m : mem) : list ((val -> bool) * nat) * mem :=
  match bs with
  | [] => ([], m)
  | (q, (b, l)) :: bs =>
    let (ids, m) := new_ops m (b :: l) in
    let (r, m) := new_op m Redirect in
    let m := set_receiver m (last ids 0) (Some r) in
    let (qs, m) := case_make bs m in ((q, hd 0 ids) :: qs, m)
  end.
Fixpoint case_receive (limit : nat) (qs : list ((val -> bool) * nat)) (m : mem) (x : val) : option mem :=
  match qs with
  | [] => Some m
  | (q, i) :: qs => if q x then receives limit m i x else case_receive limit qs m x
  end.
Fixpoint case_receives (limit : nat) (qs : list ((val -> bool) * nat)) (m : mem) (xs : list val) : option mem :=
  match xs with
  | [] => Some m
  | x :: xs => match case_receive limit qs m x with Some m => case_receives limit qs m xs | None => None end
  end.
Fixpoint case_flush (limit : nat) (qs : list ((val -> bool) * nat)) (m : mem) : option mem :=
  match qs with
  | [] => Some m
  | (_, i) :: qs => match flush limit m i with Some m => case_flush limit qs m | None => None end
  end.
Definition no_mem : mem := mkm 0 (fun _ => Redirect) (fun _ => None) (fun _ => []) [] [].
(** gather(xs | case(...)); a default pipeline is a branch whose condition is always true *)
Definition case_run (limit : nat) (bs : list branch) (xs : list val) : option (list val) :=
  let (qs, m) := case_make bs no_mem in
  match case_receives limit qs m xs with
  | None => None
  | Some m => match case_flush limit qs m with Some m => Some (out m) | None => None end
  end.
