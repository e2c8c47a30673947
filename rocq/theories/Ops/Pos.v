(** pos(): the position, in the input of an operator, of the tuple that its function is given.

    Every operator counts what it receives (core.py:44, 101), env.current_op is the operator that received something last (core.py:100,
    env.py:86), and pos() is the count of that operator (core.py:106-107, api.py:306-307, env.py:148).  So what pos() returns depends on the
    order in which operators run: an operator is run by the one before it, in the middle of its send (core.py:55-60). *)
From Verif.Ops Require Export Basic.
Local Open Scope Z_scope.
Local Open Scope list_scope.

(** A function of the user: what it returns, given what pos() returns while it runs.  [None] for pos(): it raises AttributeError, because
    env.current_op is None.  (Simplification: it does nothing else.) *)
Definition pfunc := option Z -> func.

(** What an operator does on one input, or at the end of the input: it calls functions of the user, sends, and goes on in a new state.
    [Raise]: fatal_error (core.py:135-143). *)
Inductive prog :=
| Ret (s : list val)
| Raise (s : list val)
| Ask (k : option Z -> prog)
| Send (x : val) (p : prog).

Record behaviour := mkb { init : list val; on_input : list val -> val -> prog; on_flush : list val -> prog }.

Fixpoint send_all (xs : list val) (s : list val) : prog :=
  match xs with [] => Ret s | x :: xs => Send x (send_all xs s) end.

(** ** Operators that call functions.  Calling a function: core.py:77-87 [call] *)
Definition calling (f : pfunc) (args : list val) (s : list val) (k : val -> prog) : prog :=
  Ask (fun p => match f p args with Some v => k v | None => Raise s end).

(** op/map.py:63-64 *)
Definition map_b (f : pfunc) : behaviour := mkb [] (fun s x => calling f (components x) s (fun v => Send v (Ret s))) Ret.

(** op/select.py:62-65 *)
Definition select_b (f : pfunc) : behaviour :=
  mkb [] (fun s x => calling f (components x) s (fun v => if truthy v then Send x (Ret s) else Ret s)) Ret.

(** op/squish.py:73-76 *)
Fixpoint squish_p (f : pfunc) (s : list val) (acc : val) (xs : list val) : prog :=
  match xs with
  | [] => Send acc (Ret s)
  | x :: xs => calling f [acc; x] s (fun acc => squish_p f s acc xs)
  end.
Definition squish_b (f : pfunc) : behaviour := mkb [] (fun s x => squish_p f s VNone (components x)) Ret.

(** op/window.py:206-213, 195-198 *)
Definition window_b (f : pfunc) : behaviour :=
  mkb [] (fun s x => calling f (components x) s (fun v =>
            if truthy v then match s with [] => Ret [unwrap_op_output x] | _ => Send (VTuple s) (Ret [unwrap_op_output x]) end
            else Ret (s ++ [unwrap_op_output x])))
         (fun s => match s with [] => Ret [] | _ => Send (VTuple s) (Ret []) end).

(** op/red.py:188-217, without grouping.  The accumulators start as None, or 0 for count (194-196), and are changed in place. *)
Fixpoint red_p (fs : list (pfunc * bool)) (acc xs done : list val) (k : list val -> prog) : prog :=
  match fs, acc, xs with
  | f :: fs, a :: acc', x :: xs => Ask (fun p => match fst f p [a; x] with
                                                 | Some v => red_p fs acc' xs (done ++ [v]) k
                                                 | None => Raise (done ++ acc)
                                                 end)
  | _, _, _ => k done
  end.
Definition red_b (incremental : bool) (fs : list (pfunc * bool)) : behaviour :=
  mkb (map (fun f => if snd f : bool then VInt 0 else VNone) fs)
      (fun s x => if (length (components x) <? length fs)%nat then Raise s
                  else red_p fs s (components x) [] (fun s => if incremental then Send (VTuple (components x ++ s)) (Ret s) else Ret s))
      (fun s => if incremental then Ret s else Send (VTuple s) (Ret s)).

(** op/sort.py:69-88: the keys are computed when the input has ended.  (list.sort calls the key function for every element, then sorts.) *)
Fixpoint sort_p (key : pfunc) (s xs : list val) (keyed : list (val * val)) : prog :=
  match xs with
  | [] => match sort_pairs [] (rev keyed) with Some l => send_all (map snd l) [] | None => Raise s end
  | x :: xs => calling key (components x) s (fun k => sort_p key s xs ((k, x) :: keyed))
  end.
Definition sort_b (key : pfunc) : behaviour := mkb [] (fun s x => Ret (s ++ [x])) (fun s => sort_p key s s []).

(** op/expand.py:135-137, given a generator: its elements are computed, by code of the user, one at a time, each after the one before has
    been sent.  [elements x]: this code, for the generator in the input x. *)
Fixpoint expand_p (es : list (option Z -> option val)) (s : list val) : prog :=
  match es with
  | [] => Ret s
  | e :: es => Ask (fun p => match e p with Some v => Send v (expand_p es s) | None => Raise s end)
  end.
Definition expand_b (elements : val -> list (option Z -> option val)) : behaviour := mkb [] (fun s x => expand_p (elements x) s) Ret.

(** Any operator that calls no function *)
Definition plain_b (start : list val) (on : list val -> val -> list val * list val) (at_end : list val -> list val) : behaviour :=
  mkb start (fun s x => send_all (snd (on s x)) (fst (on s x))) (fun s => send_all (at_end s) s).

(** ** Pipelines.  The number stands for the identity of the operator object. *)
Inductive op :=
| Prim (i : nat) (b : behaviour)
| Case (i : nat) (bs : branches)
| Args (i : nat) (first : val -> list val) (p : pipeline)
with branches :=
| NoDefault
| Default (p : pipeline)
| Branch (f : pfunc) (p : pipeline) (bs : branches)
with pipeline :=
| Nil
| Cons (o : op) (p : pipeline).

(** op/redirect.py:31-32: at the end of the pipelines of case and args (case.py:158-165, args.py:110-111) *)
Definition redirect (i : nat) : op := Prim i (plain_b [] (fun s x => (s, [x])) (fun _ => [])).

(** What happens.  Operator i is set up; it receives x; it calls a function, during which pos() would be p; it reports an error; a tuple
    arrives at the end of the pipeline. *)
Inductive event := Setup (i : nat) | Input (i : nat) (x : val) | Called (i : nat) (p : option Z) | Failed (i : nat) | Output (x : val).

(** env.current_op, the fields _count of the operators and their other fields, and what has happened *)
Record world := mkw { current : option nat; count : nat -> Z; fields : nat -> list val; trace : list event }.

Definition set {A : Type} (m : nat -> A) (i : nat) (a : A) : nat -> A := fun j => if Nat.eqb j i then a else m j.
Definition note (e : event) (w : world) : world := mkw (current w) (count w) (fields w) (trace w ++ [e]).
Definition keep (i : nat) (s : list val) (w : world) : world := mkw (current w) (count w) (set (fields w) i s) (trace w).
(** core.py:106-107; api.py:306-307 *)
Definition pos (w : world) : option Z := match current w with Some i => Some (count w i) | None => None end.
(** core.py:97-102 [receive_input], before it calls receive *)
Definition enter (i : nat) (x : val) (w : world) : world :=
  mkw (Some i) (set (count w) i (count w i + 1)) (fields w) (trace w ++ [Input i x]).

Definition receiver := val -> world -> world.

(** The flag: whether it ended normally; otherwise KillAndResumeException is raised *)
Fixpoint perform (i : nat) (p : prog) (k : receiver) (w : world) : world * bool :=
  match p with
  | Ret s => (keep i s w, true)
  | Raise s => (note (Failed i) (keep i s w), false)
  | Ask f => perform i (f (pos w)) k (note (Called i (pos w)) w)
  | Send x p => perform i p k (k x w)
  end.

(** pipeline.py:45-62 [setup] and the setup methods of the operators.  Of case: case.py:91-92, 127-156.  The pipeline of args is set up
    when it is run. *)
Fixpoint setup_op (o : op) (w : world) : world :=
  match o with
  | Prim i b => keep i (init b) (note (Setup i) w)
  | Case i bs => setup_branches bs (keep i [] (note (Setup i) w))
  | Args i _ _ => keep i [] (note (Setup i) w)
  end
with setup_branches (bs : branches) (w : world) : world :=
  match bs with
  | NoDefault => w
  | Default p => setup_pipeline p w
  | Branch _ p bs => setup_branches bs (setup_pipeline p w)
  end
with setup_pipeline (p : pipeline) (w : world) : world :=
  match p with
  | Nil => w
  | Cons o p => setup_pipeline p (setup_op o w)
  end.

Fixpoint give_all (r : receiver) (xs : list val) (w : world) : world :=
  match xs with [] => w | x :: xs => give_all r xs (r x w) end.

(** core.py:69-71 [propagate_flush]: the flush of the receiver *)
Definition flusher := world -> world * bool.

(** flush_op: case.py:109-114 (the flush of the last operator of a branch goes nowhere); args.py:90-106, where nothing is left over because
    every argument has been used (Simplification: the pipeline of args has one parameter, and only what its first operator sends depends on
    the argument.)  core.py:124-125 *)
Fixpoint flush_op (o : op) (k : receiver) (next : flusher) (w : world) : world * bool :=
  match o with
  | Prim i b =>
    match perform i (on_flush b (fields w i)) k w with
    | (w, true) => next w
    | r => r
    end
  | Case _ bs =>
    match flush_branches bs k w with
    | (w, true) => next w
    | r => r
    end
  | Args _ _ _ => next w
  end
with flush_branches (bs : branches) (k : receiver) (w : world) : world * bool :=
  match bs with
  | NoDefault => (w, true)
  | Default p => flush_pipeline p k (fun w => (w, true)) w
  | Branch _ p bs =>
    match flush_pipeline p k (fun w => (w, true)) w with
    | (w, true) => flush_branches bs k w
    | r => r
    end
  end
with flush_pipeline (p : pipeline) (k : receiver) (next : flusher) (w : world) : world * bool :=
  match p with
  | Nil => next w
  | Cons o p => flush_op o (receive_pipeline p k) (flush_pipeline p k next) w
  end
(** core.py:95-104 [receive_input] and the receive methods.  Case: case.py:97-106.  Args: args.py:80-87, pipeline.py:310-340 or 411-421
    [run_pipeline]: setup, run, flush. *)
with receive_op (o : op) (k : receiver) (x : val) (w : world) : world :=
  match o with
  | Prim i b => fst (perform i (on_input b (fields w i) (wrap x)) k (enter i x w))
  | Case i bs => receive_branches i bs k (wrap x) (enter i x w)
  | Args i first p =>
    let w := enter i x w in
    fst (flush_pipeline p k (fun w => (w, true)) (give_all (receive_pipeline p k) (first (unwrap_op_output (wrap x))) (setup_pipeline p w)))
  end
with receive_branches (i : nat) (bs : branches) (k : receiver) (x : val) (w : world) : world :=
  match bs with
  | NoDefault => w
  | Default p => receive_pipeline p k x w
  | Branch f p bs =>
    let w' := note (Called i (pos w)) w in
    match f (pos w) (components x) with
    | None => note (Failed i) w'
    | Some v => if truthy v then receive_pipeline p k x w' else receive_branches i bs k x w'
    end
  end
with receive_pipeline (p : pipeline) (k : receiver) (x : val) (w : world) : world :=
  match p with
  | Nil => k x w
  | Cons o p => receive_op o (receive_pipeline p k) x w
  end.

Definition output : receiver := fun x w => note (Output x) w.

(** pipeline.py:411-421 [run_pipeline], of a pipeline whose first operator sends [xs], p being the other operators *)
Definition run (xs : list val) (p : pipeline) (w : world) : world :=
  fst (flush_pipeline p output (fun w => (w, true)) (give_all (receive_pipeline p output) xs (setup_pipeline p w))).

(** core.py:44: operators that have just been made *)
Definition new_world (c : option nat) (f : nat -> list val) : world := mkw c (fun _ => -1) f [].

(** core.py:109-113 [run]: an operator that comes first receives an empty tuple, but not by receive_input *)
Definition run_first (i : nat) (b : behaviour) (p : pipeline) (w : world) : world :=
  let w := setup_pipeline p (keep i (init b) (note (Setup i) w)) in
  match perform i (on_input b (fields w i) (VList [])) (receive_pipeline p output) w with
  | (w, true) => fst (flush_op (Prim i b) (receive_pipeline p output) (flush_pipeline p output (fun w => (w, true))) w)
  | (w, false) => w
  end.
