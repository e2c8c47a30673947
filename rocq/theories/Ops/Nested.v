(** Operators that run other pipelines on their input: case, args, and the execution of a pipeline
    held by a variable. *)
From Verif.Ops Require Export SetOps.
Set Implicit Arguments.
Local Open Scope string_scope.
Local Open Scope list_scope.

(** Redirect (op/redirect.py:19-32) at the end of a nested pipeline: tuples and Errors go to the
    parent's receiver; it has no receiver of its own, so end-of-stream stops there. *)
Definition redirect (es : list event) : list event :=
  flat_map (fun e => match e with
                     | Data x => [Data (wrap x)]
                     | Err e => [Err e]
                     | Fatal e => [Fatal e]
                     | Flush => []
                     end) es.

(** * case (op/case.py:72-172) *)

(** The current states of a list of nested pipelines. *)
Fixpoint states (ms : list machine) : Type :=
  match ms with
  | [] => unit
  | m :: ms' => St m * states ms'
  end.

Fixpoint fresh_all (ms : list machine) : states ms :=
  match ms with
  | [] => tt
  | m :: ms' => (fresh m, fresh_all ms')
  end.

Fixpoint setup_all (ms : list machine) : states ms -> option (states ms) :=
  match ms with
  | [] => fun s => Some s
  | m :: ms' => fun s => match setup m (fst s), setup_all ms' (snd s) with
                         | Some s1, Some s2 => Some (s1, s2)
                         | _, _ => None
                         end
  end.

(** Give events to the n-th pipeline. *)
Fixpoint feed_nth (ms : list machine) (n : nat) (es : list event) : states ms -> result (states ms) :=
  match ms with
  | [] => fun s => (s, [], Ok)
  | m :: ms' => fun s =>
    match n with
    | O => let '(s1, o, r) := feed m (fst s) es in ((s1, snd s), o, r)
    | S n' => let '(s2, o, r) := feed_nth ms' n' es (snd s) in ((fst s, s2), o, r)
    end
  end.

(** The loop over branches (98-103): the index of the first branch whose predicate is true; the
    pipelines are numbered with the default pipeline, if there is one, last.  [inr]: a predicate raised. *)
Fixpoint case_route (preds : list func) (has_default : bool) (i : nat) (xs : list val) : option nat + unit :=
  match preds with
  | [] => inl (if has_default then Some i else None)
  | p :: preds' => match p xs with
                   | None => inr tt
                   | Some v => if truthy v then inl (Some i) else case_route preds' has_default (S i) xs
                   end
  end.

(** flush 107-112 *)
Fixpoint case_flush (ms : list machine) : states ms -> result (states ms) :=
  match ms with
  | [] => fun s => (s, [], Ok)
  | m :: ms' => fun s =>
    let '(s1, o, r) := feed m (fst s) [Flush] in
    match r with
    | Ok => let '(s2, o', r') := case_flush ms' (snd s) in ((s1, s2), redirect o ++ o', r')
    | _ => ((s1, snd s), redirect o, r)
    end
  end.

(** State: has the setup of the branch pipelines been done ([PipelineMarcel.setup], pipeline.py:303-311,
    does it only in state IDLE, and nothing puts a branch pipeline back into that state), and the
    branch pipelines followed by the default pipeline.  Simplification: the pipelines are those of the
    command language (in the API, [PipelineOpList.setup] does nothing). *)
Definition case_op (preds : list func) (pipelines : list machine) (has_default : bool) : machine :=
  mk_op (false, fresh_all pipelines)
    (fun s => if fst s then Some s
              else match setup_all pipelines (snd s) with
                   | Some l => Some (true, l)
                   | None => None
                   end)
    (fun s x =>
       match case_route preds has_default 0 (components x) with
       | inr _ => fatal_error s "case" (VTuple (components x))
       | inl None => (s, [], Ok)
       | inl (Some n) => let '(l, o, r) := feed_nth pipelines n [Data x] (snd s) in
                         ((fst s, l), redirect o, r)
       end)
    (fun s => let '(l, o, r) := case_flush pipelines (snd s) in
              match r with
              | Ok => ((fst s, l), o ++ [Flush], Ok)
              | _ => ((fst s, l), o, r)
              end).

(** * args (op/args.py:63-131) *)

(** [run] is the argument pipeline as a function of the values bound to its parameters.
    Simplification: a run depends on nothing but these values. *)
Definition args_op (all : bool) (n_params : nat) (run : list val -> source) : machine :=
  mk_op []
    (fun _ => if all && negb (Nat.eqb n_params 1) then None                            (* 113-120 *)
              else if Nat.eqb n_params 0 then None else Some [])
    (fun args x =>
       let args := args ++ [unwrap_op_output x] in
       if negb all && Nat.eqb (length args) n_params
       then ([], redirect (fst (run args)), snd (run args))                            (* 86-89 *)
       else (args, [], Ok))
    (fun args =>
       match args with
       | [] => ([], [Flush], Ok)
       | _ =>
         let args := if all then [VList args] else pad_to n_params args in
         let o := redirect (fst (run args)) ++ [Flush] in                              (* 98-103 *)
         match snd (run args) with
         | Ok => ([], o ++ [Flush], Ok)                                                (* 106 *)
         | r => ([], o, r)
         end
       end).

(** * A pipeline held by a variable, used inside a pipeline (op/runpipeline.py:22-97)

    setup (38-68) works on a fresh copy of the variable's pipeline; route_output makes the receiver of
    its last operator that of the runpipeline operator.  receive_error is inherited, so Errors do not
    go through the pipeline. *)
Definition nested (m : machine) : machine :=
  mk_op (fresh m) (fun _ => setup m (fresh m))
    (fun s x => feed m s [Data x])
    (fun s => let '(s', o, r) := feed m s [Flush] in
              match r with
              | Ok => (s', o ++ [Flush], Ok)
              | _ => (s', o, r)
              end).

