(** Operators with plain receive/flush behaviour. *)
From Verif.Exec Require Export Machine.
Set Implicit Arguments.
Local Open Scope string_scope.
Local Open Scope list_scope.

(** [except Exception] around a user function (Op.call, core.py:75-87): an exception becomes a fatal
    error; the reported input is the argument tuple. *)
Definition call (S : Type) (s : S) (op : string) (f : func) (args : list val)
  (k : val -> result S) : result S :=
  match f args with
  | Some v => k v
  | None => fatal_error s op (VTuple args)
  end.

Definition keep_state (S : Type) (s : S) : option S := Some s.

(** op/map.py:63-64 *)
Definition map_op (f : func) : machine :=
  mk_op tt (@keep_state _)
    (fun s x => call s "map" f (components x) (fun v => (s, [Data v], Ok)))
    (@default_flush _).

(** op/select.py:62-65 *)
Definition select_op (f : func) : machine :=
  mk_op tt (@keep_state _)
    (fun s x => call s "select" f (components x)
                  (fun v => (s, if truthy v then [Data x] else [], Ok)))
    (@default_flush _).

(** op/squish.py:73-76: functools.reduce(f, x, None), each application through Op.call. *)
Fixpoint squish_fold (f : func) (acc : val) (xs : list val) : val + list val :=
  match xs with
  | [] => inl acc
  | x :: xs' => match f [acc; x] with
                | Some acc' => squish_fold f acc' xs'
                | None => inr [acc; x]
                end
  end.

Definition squish_op (f : func) : machine :=
  mk_op tt (@keep_state _)
    (fun s x => match squish_fold f VNone (components x) with
                | inl v => (s, [Data v], Ok)
                | inr args => fatal_error s "squish" (VTuple args)
                end)
    (@default_flush _).

(** op/cast.py:72-84: component i goes through function i if there is one and it is not None. *)
Fixpoint cast_row (fs : list func) (xs : list val) : list val + val :=
  match xs with
  | [] => inl []
  | x :: xs' =>
    let v := match x, fs with
             | VNone, _ => Some VNone
             | _, f :: _ => f [x]
             | _, [] => Some x
             end in
    match v with
    | None => inr x
    | Some v => match cast_row (tl fs) xs' with
                | inl vs => inl (v :: vs)
                | inr e => inr e
                end
    end
  end.

Definition cast_op (fs : list func) : machine :=
  mk_op tt (@keep_state _)
    (fun s x => match cast_row fs (components x) with
                | inl vs => (s, [Data (VTuple vs)], Ok)
                | inr bad => fatal_error s "cast" (VTuple [bad])
                end)
    (@default_flush _).

(** op/head.py:57-96.  State: number of tuples received by the impl object created in setup. *)
Definition head_op (n : Z) : machine :=
  mk_op 0%Z (fun _ => if Z.eqb n 0 then None else Some 0%Z)
    (fun received x =>
       let received := (received + 1)%Z in
       if Z.ltb 0 n
       then (received, if Z.leb received n then [Data x] else [], Ok)          (* HeadKeepN 82-85 *)
       else (received, if Z.ltb (- n) received then [Data x] else [], Ok))     (* HeadSkipN 93-96 *)
    (@default_flush _).

(** Python list assignment l[i] = x. *)
Fixpoint set_nth (A : Type) (i : nat) (x : A) (l : list A) : list A :=
  match l, i with
  | [], _ => []
  | _ :: l', O => x :: l'
  | y :: l', S i' => y :: set_nth i' x l'
  end.

(** op/tail.py:46-126.  State: the circular queue and its end index, created in setup. *)
Record tail_state := MkTail { t_queue : list val; t_end : nat }.

(** TailKeepN.flush 103-110: [count] elements starting at [p], cyclically. *)
Fixpoint tail_emit (n : nat) (q : list val) (p count : nat) : list event :=
  match count with
  | O => []
  | S c => Data (nth p q VNone) :: tail_emit n q (Nat.modulo (p + 1) n) c
  end.

Definition tail_keep (n : nat) : machine :=
  mk_op (MkTail [] 0) (fun _ => Some (MkTail [] 0))
    (fun s x =>
       if Nat.ltb (length (t_queue s)) n
       then (MkTail (t_queue s ++ [x]) (t_end s), [], Ok)                       (* 96-97 *)
       else (MkTail (set_nth (t_end s) x (t_queue s)) (Nat.modulo (t_end s + 1) n), [], Ok)) (* 99-100 *)
    (fun s =>
       (* 102-112, then Tail.flush calls super().flush (67-69): end-of-stream is sent twice *)
       (MkTail [] (t_end s),
        tail_emit n (t_queue s) (t_end s) (Nat.min n (length (t_queue s))) ++ [Flush; Flush], Ok)).

Definition tail_skip (n : nat) : machine :=
  mk_op (MkTail [] 0) (fun _ => Some (MkTail [] 0))
    (fun s x =>
       if Nat.ltb (length (t_queue s)) n
       then (MkTail (t_queue s ++ [x]) (t_end s), [], Ok)                       (* 121-122 *)
       else (MkTail (set_nth (t_end s) x (t_queue s)) (Nat.modulo (t_end s + 1) n),
             [Data (nth (t_end s) (t_queue s) VNone)], Ok))                     (* 124-126 *)
    (@default_flush _).                                  (* TailImpl.flush is pass; 69 propagates *)

Definition fail_setup : machine :=
  mk_op tt (fun _ => None) (fun s _ => (s, [], Kill)) (@default_flush _).

(** Tail.setup 58-62 *)
Definition tail_op (n : Z) : machine :=
  if Z.eqb n 0 then fail_setup
  else if Z.ltb 0 n then tail_keep (Z.to_nat n) else tail_skip (Z.to_nat (- n)).

(** op/reverse.py:37-54.  [contents] is created by __init__, not by setup; it is None after a flush,
    and appending to None is an AttributeError, which aborts the command. *)
Definition reverse_op : machine :=
  mk_op (Some []) (@keep_state _)
    (fun s x => match s with
                | Some c => (Some (c ++ [x]), [], Ok)
                | None => (None, [], Kill)
                end)
    (fun s => match s with
              | Some c => (None, map Data (rev c) ++ [Flush], Ok)
              | None => (None, [Flush], Ok)
              end).

(** Membership in a Python set/dict key set. *)
Definition py_mem (x : val) (l : list val) : bool := existsb (py_eq x) l.

(** op/unique.py:76-89; hashing an unhashable tuple raises TypeError, turned into KillCommand. *)
Definition unique_op : machine :=
  mk_op [] (fun _ => Some [])
    (fun seen x =>
       if hashable x
       then if py_mem x seen then (seen, [], Ok) else (x :: seen, [Data x], Ok)
       else (seen, [], Kill))
    (@default_flush _).

(** op/unique.py:92-101; current is None initially. *)
Definition unique_consecutive_op : machine :=
  mk_op VNone (fun _ => Some VNone)
    (fun cur x => if py_eq cur x then (cur, [], Ok) else (x, [Data x], Ok))
    (@default_flush _).

(** list.sort: stable insertion by key; [None] when a comparison raises TypeError.  (Python's
    timsort may find a different pair to complain about, or none where this model complains; the
    theorems about sorted output concern keys that are all comparable.) *)
Fixpoint sort_insert (k x : val) (l : list (val * val)) : option (list (val * val)) :=
  match l with
  | [] => Some [(k, x)]
  | (k', x') :: l' =>
    match py_lt k k' with
    | None => None
    | Some true => Some ((k, x) :: l)
    | Some false => option_map (cons (k', x')) (sort_insert k x l')
    end
  end.

Fixpoint sort_pairs (acc : list (val * val)) (l : list (val * val)) : option (list (val * val)) :=
  match l with
  | [] => Some acc
  | (k, x) :: l' => match sort_insert k x acc with
                    | None => None
                    | Some acc' => sort_pairs acc' l'
                    end
  end.

(** Keys in input order; the first failing call is reported (op/sort.py:78). *)
Fixpoint sort_keys (key : func) (l : list val) : list (val * val) + val :=
  match l with
  | [] => inl []
  | x :: l' => match key (components x) with
               | None => inr (VTuple (components x))
               | Some k => match sort_keys key l' with
                           | inl r => inl ((k, x) :: r)
                           | inr e => inr e
                           end
               end
  end.

(** op/sort.py:48-88 *)
Definition sort_op (key : option func) : machine :=
  mk_op None (fun _ => Some (Some []))
    (fun s x => match s with
                | Some c => (Some (c ++ [x]), [], Ok)
                | None => (None, [], Ok)                                        (* 71 *)
                end)
    (fun s => match s with
              | None => (None, [Flush], Ok)
              | Some c =>
                match (match key with
                       | Some f => sort_keys f c
                       | None => inl (map (fun x => (x, x)) c)
                       end) with
                | inr e => (Some c, [Fatal (MkErr "sort" e)], Resume)
                | inl ps => match sort_pairs [] ps with
                            | None => (Some c, [], Kill)                        (* 86-87 *)
                            | Some ps' => (None, map (fun p => Data (snd p)) ps' ++ [Flush], Ok)
                            end
                end
              end).

(** op/write.py:147-155 (receive) and 157-160 (receive_error): [w] says whether writing one tuple
    raises (anything caught at 150-153); writing Errors is assumed to succeed.  Every tuple is
    forwarded; Errors are printed and not forwarded. *)
Definition write_op (w : val -> bool) : machine := {|
  St := list (val + err);        (* what has been written, latest first *)
  fresh := [];
  setup := fun _ => Some [];
  step := fun s e =>
    match e with
    | Data x => if w x then (inl x :: s, [Data x], Ok)
                else (s, [Err (MkErr "write" x); Data x], Ok)
    | Err e | Fatal e => (inr e :: s, [], Ok)
    | Flush => (s, [Flush], Ok)
    end |}.
