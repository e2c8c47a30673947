(** The push-based execution core of marcel.

    An operator is a state machine driven by its upstream: it is handed a tuple
    ([Op.receive_input], core.py:90-99), an Error ([Op.receive_error], core.py:115-117) or the end of
    the stream ([Op.flush], core.py:119-120) and, while handling it, hands events to its receiver
    ([Op.send] 55-61, [Op.send_error] 63-68, [Op.propagate_flush] 70-72).  The receiver runs to
    completion inside the send, so the events an operator emits while handling one input are consumed
    in order before it is given its next input: a handler is modelled as returning the list of events
    it emits together with the way it ended. *)
From Verif.Py Require Export Val.
Set Implicit Arguments.

(** marcel.object.error.Error (object/error.py:20-45).  The message text is reduced to the operator
    reporting the error and the input it was reporting on (core.py:219-222). *)
Record err := MkErr { err_op : string; err_input : val }.

(** What travels from an operator to its receiver.  [Fatal] is an Error sent by
    [Op.fatal_error] (core.py:135-143), which sends inside try/except and so ignores whatever the
    receiver raises while handling it; the receiver cannot tell it from [Err]. *)
Inductive event :=
| Data (x : val)
| Err (e : err)
| Fatal (e : err)
| Flush.

(** How a handler ends: normally, by raising KillAndResumeException, or by raising
    KillCommandException (exception.py; both derive from BaseException, so [except Exception] does
    not stop them).  Other exceptions that escape an operator abort the command as well and are
    counted as [Kill]. *)
Inductive outcome := Ok | Resume | Kill.

Definition result (S : Type) : Type := (S * list event * outcome)%type.

(** An operator.  [fresh] is the object as created (__init__), [setup] is [Op.setup] followed by
    [Op.customize_pipelines] (pipeline.py:50-64) applied to whatever state earlier runs left behind;
    [None] means setup raised. *)
Record machine := {
  St : Type;
  fresh : St;
  setup : St -> option St;
  step : St -> event -> result St }.

(** What the receiver's handler is given for an event: [receive_input] wraps anything that is not a
    tuple or list (core.py:97). *)
Definition as_input (e : event) : event :=
  match e with
  | Data x => Data (wrap x)
  | Fatal e => Err e
  | Err _ | Flush => e
  end.

(** What the sender sees of an exception raised by the receiver: [receive_input] swallows
    KillAndResume (core.py:98-99), [fatal_error] swallows everything (138-141), nothing else does. *)
Definition caught (e : event) (r : outcome) : outcome :=
  match e, r with
  | Data _, Resume => Ok
  | Fatal _, _ => Ok
  | _, _ => r
  end.

Definition deliver (m : machine) (s : St m) (e : event) : result (St m) :=
  let '(s', out, r) := step m s (as_input e) in (s', out, caught e r).

(** Deliver a list of events, stopping at the first exception that reaches the sender. *)
Fixpoint feed (m : machine) (s : St m) (es : list event) : result (St m) :=
  match es with
  | [] => (s, [], Ok)
  | e :: es' =>
    let '(s1, o1, r1) := deliver m s e in
    match r1 with
    | Ok => let '(s2, o2, r2) := feed m s1 es' in (s2, o1 ++ o2, r2)
    | _ => (s1, o1, r1)
    end
  end.

Definition first_raise (r2 r1 : outcome) : outcome :=
  match r2 with Ok => r1 | _ => r2 end.

(** [a | b]: a's receiver is b (pipeline.py:51-58).  Simplification: when b raises in the middle of
    one of a's handlers, a's state is taken to be that of the completed handler; the run is over at
    that point (or, inside a nested pipeline, the next run starts with setup). *)
Definition compose (a b : machine) : machine := {|
  St := St a * St b;
  fresh := (fresh a, fresh b);
  setup := fun s =>
    match setup a (fst s) with
    | None => None
    | Some s1 => match setup b (snd s) with
                 | None => None
                 | Some s2 => Some (s1, s2)
                 end
    end;
  step := fun s e =>
    let '(s1, o1, r1) := step a (fst s) e in
    let '(s2, o2, r2) := feed b (snd s) o1 in
    ((s1, s2), o2, first_raise r2 r1) |}.

(** The far end of a pipeline: hands everything on. *)
Definition wire : machine := {|
  St := unit;
  fresh := tt;
  setup := fun s => Some s;
  step := fun s e => (s, [e], Ok) |}.

(** PipelineExecutable with the given operators after the first one (pipeline.py:50-64). *)
Fixpoint pipe (ms : list machine) : machine :=
  match ms with
  | [] => wire
  | m :: ms' => compose m (pipe ms')
  end.

(** What the first operator of a pipeline does when run: the events it sends and how it ended. *)
Definition source := (list event * outcome)%type.

(** run_pipeline: setup, run the first operator, then flush it (pipeline.py:313-339, 380-390;
    66-69, 78-79).  The first operator's flush is the default one, which just propagates. *)
Definition exec_from (m : machine) (s0 : St m) (src : source) : result (St m) :=
  match setup m s0 with
  | None => (s0, [], Kill)
  | Some s =>
    let '(s1, o1, r1) := feed m s (fst src) in
    match r1 with
    | Ok => match snd src with
            | Ok => let '(s2, o2, r2) := feed m s1 [Flush] in (s2, o1 ++ o2, r2)
            | r => (s1, o1, r)
            end
    | _ => (s1, o1, r1)
    end
  end.

Definition exec (m : machine) (src : source) : source :=
  let '(_, o, r) := exec_from m (fresh m) src in (o, r).

(** Events that a stream consumer sees as tuples, and as Errors. *)
Fixpoint rows (es : list event) : list val :=
  match es with
  | [] => []
  | Data x :: es' => wrap x :: rows es'
  | _ :: es' => rows es'
  end.

Fixpoint errs (es : list event) : list err :=
  match es with
  | [] => []
  | Err e :: es' | Fatal e :: es' => e :: errs es'
  | _ :: es' => errs es'
  end.

Fixpoint flushes (es : list event) : nat :=
  match es with
  | [] => 0
  | Flush :: es' => S (flushes es')
  | _ :: es' => flushes es'
  end.

(** * Building operators *)

(** User functions: arbitrary, pure, possibly raising ([None]). *)
Definition func := list val -> option val.

(** An operator given by its receive and flush methods, with the default receive_error
    (core.py:115-117). *)
Definition mk_op (S : Type) (s0 : S) (su : S -> option S)
  (receive : S -> val -> result S) (flush : S -> result S) : machine := {|
  St := S;
  fresh := s0;
  setup := su;
  step := fun s e =>
    match e with
    | Data x => receive s x
    | Err e | Fatal e => (s, [Err e], Ok)
    | Flush => flush s
    end |}.

(** Op.flush (core.py:119-120). *)
Definition default_flush (S : Type) (s : S) : result S := (s, [Flush], Ok).

(** Op.fatal_error (core.py:135-143): send the Error, raise KillAndResume. *)
Definition fatal_error (S : Type) (s : S) (op : string) (input : val) : result S :=
  (s, [Fatal (MkErr op input)], Resume).
