(** Tracing of a pipeline's execution: what [trace -1] and [trace -f] make a command write.

    The trace is written from three places: PipelineExecutable.setup (pipeline.py:58-62),
    PipelineExecutable.run (66-69) and Op.send / Op.send_error (core.py:55-68).  All of them format
    the operator with its __repr__, which may raise. *)
From Verif.Ops Require Export Builtin.
From Verif.Py Require Export Dec.
Set Implicit Arguments.
Local Open Scope string_scope.
Local Open Scope list_scope.

(** One operator of a pipeline with what its __repr__ gives before and after setup; [None]: it
    raises.  Simplification: after setup a representation does not change (handlers do not touch the
    fields that __repr__ reads). *)
Record stage := mkstage { stage_op : machine; before_setup : option string; after_setup : option string }.

(** A line of the trace.  The number is the position of the operator in the pipeline (0 is the first
    one); it is not printed.
    - SETUP op            pipeline.py:60-61
    - RUN op              pipeline.py:67-68
    - RUN op <- value     core.py:58-59, op being the receiver
    - error op            core.py:64-65, op being the sender *)
Inductive entry :=
| E_setup (i : nat) (op : string)
| E_start (op : string)
| E_run (i : nat) (op : string) (x : val)
| E_error (i : nat) (op : string) (e : err).

Definition lresult (S : Type) : Type := (S * list event * outcome * list entry)%type.

(** What tracing does before one event goes from operator i, represented as [sender], to operator
    i + 1, represented as [receiver] ([None]: there is no such operator).  [None]: formatting an
    operator raised.  core.py:55-72 (Op.send, Op.send_error, Op.propagate_flush). *)
Definition announce (i : nat) (sender : option string) (receiver : option (option string)) (e : event) : option (list entry) :=
  match e with
  | Data x =>
    match receiver with
    | None => Some []
    | Some None => None
    | Some (Some n) => Some [E_run (S i) n x]
    end
  | Err e | Fatal e =>
    match sender with
    | None => None
    | Some n => Some [E_error i n e]
    end
  | Flush => Some []
  end.

(** What the sender sees when formatting raised: AttributeError and AssertionError are not caught on
    the way, except by Op.fatal_error (core.py:135-143), which then has not delivered the Error. *)
Definition unannounced (e : event) : outcome := caught e Kill.

(** The events that operator i sends, and what becomes of them in the operators after it. *)
Fixpoint tfeed (i : nat) (sender : option string) (ms : list stage) {struct ms} :
  St (pipe (map stage_op ms)) -> list event -> lresult (St (pipe (map stage_op ms))) :=
  match ms return St (pipe (map stage_op ms)) -> list event -> lresult (St (pipe (map stage_op ms))) with
  | [] =>
    fix go (s : unit) (es : list event) : lresult unit :=
      match es with
      | [] => (s, [], Ok, [])
      | e :: es' =>
        match announce i sender None e with
        | None =>
          match unannounced e with
          | Ok => go s es'
          | r => (s, [], r, [])
          end
        | Some l => let '(s', o, r, l') := go s es' in (s', as_input e :: o, r, l ++ l')
        end
      end
  | m :: ms' =>
    fix go (s : St (stage_op m) * St (pipe (map stage_op ms'))) (es : list event) :
      lresult (St (stage_op m) * St (pipe (map stage_op ms'))) :=
      match es with
      | [] => (s, [], Ok, [])
      | e :: es' =>
        match announce i sender (Some (after_setup m)) e with
        | None =>
          match unannounced e with
          | Ok => go s es'
          | r => (s, [], r, [])
          end
        | Some l =>
          let '(s1, o1, r1) := step (stage_op m) (fst s) (as_input e) in
          let '(s2, o2, r2, l2) := tfeed (S i) (after_setup m) ms' (snd s) o1 in
          match caught e (first_raise r2 r1) with
          | Ok => let '(s3, o3, r3, l3) := go (s1, s2) es' in (s3, o2 ++ o3, r3, l ++ l2 ++ l3)
          | r => ((s1, s2), o2, r, l ++ l2)
          end
        end
      end
  end.

(** PipelineExecutable.setup (pipeline.py:58-62) for the operators from position i on. *)
Fixpoint tsetup (i : nat) (ms : list stage) {struct ms} :
  St (pipe (map stage_op ms)) -> option (St (pipe (map stage_op ms))) * list entry :=
  match ms return St (pipe (map stage_op ms)) -> option (St (pipe (map stage_op ms))) * list entry with
  | [] => fun s => (Some s, [])
  | m :: ms' => fun s =>
    match before_setup m with
    | None => (None, [])
    | Some n =>
      match setup (stage_op m) (fst s) with
      | None => (None, [E_setup i n])
      | Some s1 =>
        let '(r, l) := tsetup (S i) ms' (snd s) in
        (match r with Some s2 => Some (s1, s2) | None => None end, E_setup i n :: l)
      end
    end
  end.

(** A command run with tracing on: the first operator, represented as [b] before and [a] after its
    setup, does [src] (as in [exec]); the others are [ms].  pipeline.py:313-339, 380-390, 66-69. *)
Definition texec_from (b a : option string) (ms : list stage) (s0 : St (pipe (map stage_op ms))) (src : source) :
  lresult (St (pipe (map stage_op ms))) :=
  match b with
  | None => (s0, [], Kill, [])
  | Some n0 =>
    match tsetup 1 ms s0 with
    | (None, l) => (s0, [], Kill, E_setup 0 n0 :: l)
    | (Some s, l) =>
      match a with
      | None => (s, [], Kill, E_setup 0 n0 :: l)
      | Some n =>
        let l := E_setup 0 n0 :: l ++ [E_start n] in
        let '(s1, o1, r1, l1) := tfeed 0 a ms s (fst src) in
        match r1 with
        | Ok => match snd src with
                | Ok => let '(s2, o2, r2, l2) := tfeed 0 a ms s1 [Flush] in (s2, o1 ++ o2, r2, l ++ l1 ++ l2)
                | r => (s1, o1, r, l ++ l1)
                end
        | _ => (s1, o1, r1, l ++ l1)
        end
      end
    end
  end.

Definition texec (b a : option string) (ms : list stage) (src : source) : source * list entry :=
  let '(_, o, r, l) := texec_from b a ms (fresh (pipe (map stage_op ms))) src in (o, r, l).

(** Environment.trace off (core.py:58, 64; pipeline.py:60, 67): the pipeline is just run. *)
Definition run_command (tracing : bool) (b a : option string) (ms : list stage) (src : source) : source * list entry :=
  if tracing then texec b a ms src else (exec (pipe (map stage_op ms)) src, []).

(** ** The operators' representations *)

(** str of an int *)
Definition int_str (n : Z) : string := dec n.

(** Operators of a command as the parser builds them; functions come with their source text. *)
Inductive operator :=
| O_map (f : func) (source : string)
| O_select (f : func) (source : string)
| O_squish (f : func) (source : string)
| O_head (n : Z)
| O_tail (n : Z)
| O_reverse
| O_sort (key : option (func * string))
| O_unique
| O_window (predicate : option func) (overlap disjoint : option Z)
| O_expand (position : option Z)
| O_other (m : machine) (b a : string).     (** any other operator whose __repr__ does not raise *)

Definition nonzero (o : option Z) : option Z := match o with Some 0%Z => None | _ => o end.
Definition option_text (name : string) (o : option Z) : list string :=
  match nonzero o with Some n => [name ++ "=" ++ int_str n]%string | None => [] end.
Fixpoint join_with (sep : string) (l : list string) : string :=
  match l with
  | [] => ""
  | [x] => x
  | x :: l' => (x ++ sep ++ join_with sep l')%string
  end.

(** Function.snippet (function.py:38-39) is the first line of the source; the sources here have one line. *)
Definition stage_of (o : operator) : stage :=
  match o with
  | O_map f s => let n := Some ("map(" ++ s ++ ")")%string in mkstage (map_op f) n n                            (* map.py *)
  | O_select f s => let n := Some ("select(" ++ s ++ ")")%string in mkstage (select_op f) n n                   (* select.py *)
  | O_squish f s => let n := Some ("squish(" ++ s ++ ")")%string in mkstage (squish_op f) n n                   (* squish.py *)
  | O_head k => let n := Some ("head(" ++ int_str k ++ ")")%string in mkstage (head_op k) n n                   (* head.py *)
  | O_tail k => let n := Some ("tail(" ++ int_str k ++ ")")%string in mkstage (tail_op k) n n                   (* tail.py *)
  | O_reverse => mkstage reverse_op None None                                   (* reverse.py has none: core.py:46-47, assert False *)
  | O_sort None => let n := Some "sort()" in mkstage (sort_op None) n n                                         (* sort.py *)
  | O_sort (Some (f, s)) => let n := Some ("sort(" ++ s ++ ")")%string in mkstage (sort_op (Some f)) n n
  | O_unique => let n := Some "unique()" in mkstage unique_op n n                                               (* unique.py *)
  | O_window (Some p) o d => mkstage (window_op (Some p) o d) None None         (* window.py:139-140: predicate.source is not a method *)
  | O_window None o d =>                                                        (* window.py:133-141: overlap and disjoint are set by setup *)
    mkstage (window_op None o d) (Some "window()")
            (Some ("window(" ++ join_with ", " (option_text "overlap" o ++ option_text "disjoint" d) ++ ")")%string)
  | O_expand p =>                                                               (* expand.py:92-98: position is set by setup *)
    mkstage (expand_op p) (Some "expand()")
            (Some (match p with None => "expand()" | Some n => "expand(" ++ int_str n ++ ")" end)%string)
  | O_other m b a => mkstage m (Some b) (Some a)
  end.
