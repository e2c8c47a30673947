(** difference, intersect, union, join, filter.

    Each takes pipelines as arguments.  What an argument pipeline sends to its last receiver when run
    ([Pipeline.run_pipeline], pipeline.py:313-339, 380-390) is a [source]: the events and the way the
    run ended.  Simplification: an argument pipeline delivers the same events each time it is run. *)
From Verif.Ops Require Export Group.
Set Implicit Arguments.
Local Open Scope string_scope.
Local Open Scope list_scope.

(** A table of counts (dict: tuple -> int). *)
Definition counts := list (val * nat).

Definition bump (k : val) (d : counts) : counts :=
  dset k (match dget k d with None => 1 | Some n => S n end) d.

(** The loaders are [map] operators appended to the argument pipeline, one more each time the operator
    is set up (difference.py:106, intersect.py:98, join.py:150, filter.py:139).  A loader returns None, so the second
    and later ones are given the row (None,).  [loader_rows n x]: the argument tuples with which the n
    loaders are called for the row x, in order. *)
Definition loader_rows (n : nat) (x : val) : list val :=
  match n with
  | O => []
  | S n' => VTuple (components x) :: repeat (VTuple [VNone]) n'
  end.

(** Call a loader on each of a list of argument tuples, stopping at an exception. *)
Section Load.
  Variables (T : Type) (add : val -> T -> option T).
  Fixpoint load_rows (xs : list val) (d : T) : T * outcome :=
    match xs with
    | [] => (d, Ok)
    | x :: xs' => match add x d with
                  | Some d' => load_rows xs' d'
                  | None => (d, Kill)
                  end
    end.
  (** Run the argument pipeline with [n] loaders at its end; Errors reach the last loader and are
      dropped there, having no receiver (core.py:63-68). *)
  Fixpoint load (n : nat) (es : list event) (r : outcome) (d : T) : T * outcome :=
    match es with
    | [] => (d, r)
    | Data x :: es' => match load_rows (loader_rows n (wrap x)) d with
                       | (d', Ok) => load n es' r d'
                       | bad => bad
                       end
    | _ :: es' => load n es' r d
    end.
End Load.

(** load_right / count_inputs: difference.py:98-103, intersect.py:89-94. *)
Definition add_count (x : val) (d : counts) : option counts :=
  if hashable x then Some (bump x d) else None.

(** * difference (op/difference.py:65-106) *)
Record difference_st := MkDiff { df_loaders : nat; df_first : bool; df_right : counts }.

Definition difference_probe (x : val) (s : difference_st) : result difference_st :=   (* 85-95 *)
  if hashable x then
    match dget x (df_right s) with
    | Some count =>
      let rt := if Nat.eqb count 1 then ddel x (df_right s) else dset x (count - 1) (df_right s) in
      (MkDiff (df_loaders s) (df_first s) rt, [], Ok)
    | None => (s, [Data x], Ok)
    end
  else (s, [], Kill).

Definition difference_op (p : source) : machine :=
  mk_op (MkDiff 0 false [])
    (fun s => Some (MkDiff (S (df_loaders s)) true []))                               (* 78-79, 97-106 *)
    (fun s x =>
       if df_first s then                                                             (* 82-84 *)
         match load add_count (df_loaders s) (fst p) (snd p) (df_right s) with
         | (rt, Ok) => difference_probe x (MkDiff (df_loaders s) false rt)
         | (rt, r) => (MkDiff (df_loaders s) true rt, [], r)
         end
       else difference_probe x s)
    (@default_flush _).

(** * intersect (op/intersect.py:55-120) *)
Record intersect_st := MkInt { is_loaders : nat; is_common : option counts }.

(** 112-120 *)
Fixpoint restrict (common input : counts) : counts :=
  match common with
  | [] => []
  | (item, count) :: common' =>
    match dget item input with
    | None | Some 0 => restrict common' input
    | Some n => (item, if Nat.ltb n count then n else count) :: restrict common' input
    end
  end.

(** 102-120 *)
Fixpoint consume_args (n : nat) (ps : list source) (common : option counts) : option counts * outcome :=
  match ps with
  | [] => (common, Ok)
  | p :: ps' =>
    match load add_count n (fst p) (snd p) [] with
    | (input, Ok) =>
      consume_args n ps' (Some (match common with None => input | Some c => restrict c input end))
    | (_, r) => (common, r)
    end
  end.

Definition intersect_probe (x : val) (s : intersect_st) : result intersect_st :=      (* 74-80 *)
  match is_common s with
  | None => (s, [], Kill)
  | Some common =>
    if hashable x then
      match dget x common with
      | Some (S n) => (MkInt (is_loaders s) (Some (dset x n common)), [Data x], Ok)
      | _ => (s, [], Ok)
      end
    else (s, [], Kill)
  end.

Definition intersect_op (ps : list source) : machine :=
  mk_op (MkInt 0 None)
    (fun s => Some (MkInt (S (is_loaders s)) (is_common s)))                          (* 68-70, 88-100 *)
    (fun s x =>
       match is_common s with
       | Some _ => intersect_probe x s
       | None =>
         match consume_args (is_loaders s) ps None with
         | (common, Ok) => intersect_probe x (MkInt (is_loaders s) common)
         | (common, r) => (MkInt (is_loaders s) common, [], r)
         end
       end)
    (@default_flush _).

(** * union (op/union.py:54-113) *)

(** PropagateFlushFromLast (100-113) in front of union's receiver. *)
Definition union_forward (last : bool) (es : list event) : list event :=
  flat_map (fun e => match e with
                     | Data x => [Data (wrap x)]
                     | Err e => [Err e]
                     | Fatal e => [Fatal e]
                     | Flush => if last then [Flush] else []
                     end) es.

(** 74-77: the remaining pipelines are not run when one raises. *)
Fixpoint union_run (ps : list source) : list event * outcome :=
  match ps with
  | [] => ([], Ok)
  | [p] => (union_forward true (fst p), snd p)
  | p :: ps' =>
    match snd p with
    | Ok => let '(o, r) := union_run ps' in (union_forward false (fst p) ++ o, r)
    | r => (union_forward false (fst p), r)
    end
  end.

(** Setting up again chains another PropagateFlushFromLast, which changes nothing. *)
Definition union_op (ps : list source) : machine :=
  mk_op tt (@keep_state _)
    (fun s x => (s, [Data x], Ok))
    (fun s => match union_run ps with
              | (o, Ok) => (s, o ++ [Flush], Ok)
              | (o, r) => (s, o, r)
              end).

(** * join (op/join.py:90-150) *)

(** The value for a key is a tuple or a list of tuples (140-145); here always the list of tuples, in
    order.  Simplification: nothing tells the two apart (121-125). *)
Definition inner := list (val * list (list val)).

(** load_inner 133-147.  An empty row fails the assertion, which [Op.call] turns into a fatal error of
    the loader: the Error has no receiver and the row is skipped. *)
Definition add_inner (x : val) (d : inner) : option inner :=
  match components x with
  | [] => Some d
  | k :: _ =>
    if hashable k
    then Some (dset k (match dget k d with None => [components x] | Some ms => ms ++ [components x] end) d)
    else None
  end.

Record join_st := MkJoin { jn_loaders : nat; jn_first : bool; jn_inner : inner }.

(** 112-125; an empty row raises IndexError at 113, which aborts the command. *)
Definition join_probe (keep : bool) (x : val) (s : join_st) : result join_st :=
  match components x with
  | [] => (s, [], Kill)
  | k :: _ =>
    if hashable k then
      match dget k (jn_inner s) with
      | None => (s, if keep then [Data (VTuple (components x))] else [], Ok)
      | Some ms => (s, map (fun m => Data (VTuple (components x ++ tl m))) ms, Ok)
      end
    else (s, [], Kill)
  end.

Definition join_op (keep : bool) (p : source) : machine :=
  mk_op (MkJoin 0 false [])
    (fun s => Some (MkJoin (S (jn_loaders s)) true []))
    (fun s x =>
       if jn_first s then
         match load add_inner (jn_loaders s) (fst p) (snd p) (jn_inner s) with
         | (d, Ok) => join_probe keep x (MkJoin (jn_loaders s) false d)
         | (d, r) => (MkJoin (jn_loaders s) true d, [], r)
         end
       else join_probe keep x s)
    (@default_flush _).

(** * filter (op/filter.py:89-141) *)

(** add_to_right 133-137 *)
Definition add_member (x : val) (d : list val) : option (list val) :=
  if hashable x then Some (if py_mem x d then d else d ++ [x]) else None.

Record filter_st := MkFilter { ft_loaders : nat; ft_right : option (list val) }.

(** 119-124.  [compare] is called directly, not through [Op.call]: an exception aborts the command. *)
Definition filter_probe (compare : option func) (keep : bool) (x : val) (right : list val) (s : filter_st)
  : result filter_st :=
  match (match compare with Some f => f (components x) | None => Some (VTuple (components x)) end) with
  | None => (s, [], Kill)
  | Some c =>
    let c := wrap_op_input c in
    if hashable c
    then (s, if Bool.eqb (py_mem c right) keep then [Data x] else [], Ok)
    else (s, [], Kill)
  end.

(** setup 106-114; load_right 132-141 leaves [right] set even when the pipeline raises. *)
Definition filter_op (compare : option func) (discard : bool) (p : source) : machine :=
  mk_op (MkFilter 0 None)
    (fun s => Some (MkFilter (ft_loaders s) None))
    (fun s x =>
       match ft_right s with
       | Some rt => filter_probe compare (negb discard) x rt s
       | None =>
         let n := S (ft_loaders s) in
         match load add_member n (fst p) (snd p) [] with
         | (rt, Ok) => filter_probe compare (negb discard) x rt (MkFilter n (Some rt))
         | (rt, r) => (MkFilter n (Some rt), [], r)
         end
       end)
    (@default_flush _).
