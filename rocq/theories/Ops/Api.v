(** The Python API: pipelines made with [|] (marcel/pipeline.py:112-148) and run by gather, first and iteration
    (marcel/api.py:234-295, op/apiop.py, op/gather.py, op/first.py, pipeline.py:520-536). *)
From Verif.Exec Require Export MachineFacts.
Set Implicit Arguments.
Local Open Scope list_scope.

(** ** Running a pipeline and keeping its output *)
Inductive item := Value (v : val) | Error (e : err).

(** APIOp (op/apiop.py:20-47): [unwrap_singleton], [stop_after_first].  StopAfterFirst is made but not raised (39, 43), and
    the argument [errors] is not used. *)
Definition api_op (unwrap stop : bool) : machine := {|
  St := list item;
  fresh := [];
  setup := fun s => Some s;
  step := fun s e =>
    match e with
    | Data x => (s ++ [Value (if unwrap then unwrap_op_output x else x)], [], Ok)
    | Err e | Fatal e => (if stop then s else s ++ [Error e], [], Ok)
    | Flush => (s, [Flush], Ok)
    end |}.

(** The pipeline [m] with that operator at its end (api.py:272-276): what it has kept, and how the run ended. *)
Definition run_api (unwrap stop : bool) (m : machine) (src : source) : list item * outcome :=
  let '(s, _, r) := exec_from (compose m (api_op unwrap stop)) (fresh (compose m (api_op unwrap stop))) src in (snd s, r).

(** gather (api.py:268-277); _run_pipeline (241-248) catches both ways of ending early *)
Definition gather (unwrap : bool) (m : machine) (src : source) : list item := fst (run_api unwrap false m src).

(** With a list for the Errors: [gather(x, errors=l)]; what is returned, and the list afterwards.  APIOp keeps it (25) and does nothing
    with it. *)
Definition gather_errors (unwrap : bool) (m : machine) (src : source) (l : list item) : list item * list item :=
  (gather unwrap m src, l).

(** first (api.py:280-295); [inr]: raise Exception(first) *)
Definition first (unwrap : bool) (m : machine) (src : source) : option val + err :=
  match fst (run_api unwrap true m src) with
  | [] => inl None
  | Value v :: _ => inl (Some v)
  | Error e :: _ => inr e
  end.

(** Iterating over a pipeline (pipeline.py:135-136, 520-536): KillAndResumeException is not caught ([None]) *)
Definition iterate (m : machine) (src : source) : option (list item) :=
  match run_api true false m src with
  | (l, Resume) => None
  | (l, _) => Some l
  end.

(** ** OpList (pipeline.py:112-148).  An operator is a number.  [cells]: the OpLists in memory, [vars]: what the results of
    the statements so far refer to. *)
Record cell := mkcell { c_op : option nat; c_ops : option (list nat) }.
Record memory := mkmemory { cells : list cell; vars : list nat }.

(** A statement of a program: [v_n = op(...)], or [v_n = v_i | v_j] *)
Inductive stmt := New (op : nat) | Or (i j : nat).

Fixpoint replace (A : Type) (n : nat) (x : A) (l : list A) : list A :=
  match l, n with
  | [], _ => []
  | _ :: l, 0 => x :: l
  | y :: l, S n => y :: replace n x l
  end.

Definition ops_of (c : cell) : list nat :=   (* create_executable_pipeline (138-148) *)
  match c_op c, c_ops c with Some a, _ => [a] | None, Some l => l | None, None => [] end.

(** __or__ (120-133) *)
Definition or_cells (m : memory) (r q : nat) : option memory :=
  match nth_error (cells m) r with
  | None => None
  | Some c =>
    (* 121-124 *)
    let mine := match c_ops c with Some l => l | None => match c_op c with Some a => [a] | None => [] end end in
    let cs := match c_ops c with None => replace r (mkcell None (Some mine)) (cells m) | Some _ => cells m end in
    match nth_error cs q with   (* other; it may be self *)
    | None => None
    | Some d =>
      let more := match c_op d with Some a => [a] | None => match c_ops d with Some l => l | None => [] end end in
      (* the op of self is left as it is if it had ops *)
      let op := match c_ops c with None => None | Some _ => c_op c end in
      Some (mkmemory (replace r (mkcell op (Some (mine ++ more))) cs) (vars m))
    end
  end.

Definition exec_stmt (m : memory) (s : stmt) : option memory :=
  match s with
  | New a => Some (mkmemory (cells m ++ [mkcell (Some a) None]) (vars m ++ [length (cells m)]))
  | Or i j =>
    match nth_error (vars m) i, nth_error (vars m) j with
    | Some r, Some q => match or_cells m r q with
                        | Some m' => Some (mkmemory (cells m') (vars m' ++ [r]))
                        | None => None
                        end
    | _, _ => None
    end
  end.

Fixpoint exec_stmts (m : memory) (p : list stmt) : option memory :=
  match p with
  | [] => Some m
  | s :: p => match exec_stmt m s with Some m' => exec_stmts m' p | None => None end
  end.

(** The operators of the pipeline in the variable [n], after the program. *)
Definition pipeline_of (p : list stmt) (n : nat) : option (list nat) :=
  match exec_stmts (mkmemory [] []) p with
  | Some m => match nth_error (vars m) n with
              | Some r => match nth_error (cells m) r with Some c => Some (ops_of c) | None => None end
              | None => None
              end
  | None => None
  end.
