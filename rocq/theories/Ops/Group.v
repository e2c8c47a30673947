(** window, red, expand *)
From Verif.Ops Require Export Basic.
Set Implicit Arguments.
Local Open Scope string_scope.
Local Open Scope list_scope.

(** * window (op/window.py) *)

(** WindowBase.flush_window 195-198: emitted events (the window is then empty in every case). *)
Definition flush_window (w : list val) : list event :=
  match w with [] => [] | _ => [Data (VTuple w)] end.

(** PredicateWindow 201-213 *)
Definition window_pred_op (p : func) : machine :=
  mk_op [] (fun _ => Some [])
    (fun w x => call w "window" p (components x)
       (fun v => if truthy v
                 then ([unwrap_op_output x], flush_window w, Ok)
                 else (w ++ [unwrap_op_output x], [], Ok)))
    (fun w => ([], flush_window w ++ [Flush], Ok)).

(** [window.append(None)] until the length is n (233-234, 256-257). *)
Definition pad_to (n : nat) (w : list val) : list val := w ++ repeat VNone (n - length w).

(** OverlapWindow.flush 236-239: k times: drop the first, append None, send. *)
Fixpoint overlap_drain (k : nat) (w : list val) : list val * list event :=
  match k with
  | O => (w, [])
  | S k' => let w' := tl w ++ [VNone] in
            let '(wf, out) := overlap_drain k' w' in (wf, Data (VTuple w') :: out)
  end.

(** OverlapWindow 216-240.  When the window is empty, flush is not propagated (231, 240). *)
Definition window_overlap (n : nat) : machine :=
  mk_op [] (fun _ => Some [])
    (fun w x =>
       let w := if Nat.eqb (length w) n then tl w else w in
       let w := w ++ [unwrap_op_output x] in
       (w, if Nat.eqb (length w) n then [Data (VTuple w)] else [], Ok))
    (fun w =>
       match w with
       | [] => (w, [], Ok)
       | _ =>
         let '(w1, o1) := if Nat.ltb (length w) n then (pad_to n w, [Data (VTuple (pad_to n w))]) else (w, []) in
         let '(w2, o2) := overlap_drain (n - 1) w1 in
         (w2, o1 ++ o2 ++ [Flush], Ok)
       end).

(** DisjointWindow 243-259 *)
Definition window_disjoint (n : nat) : machine :=
  mk_op [] (fun _ => Some [])
    (fun w x =>
       let w := w ++ [unwrap_op_output x] in
       if Nat.eqb (length w) n then ([], flush_window w, Ok) else (w, [], Ok))
    (fun w =>
       match w with
       | [] => ([], [Flush], Ok)
       | _ => ([], flush_window (pad_to n w) ++ [Flush], Ok)
       end).

(** Window.setup 145-161 on evaluated arguments.  The argument parser admits exactly one of the three
    (117).  An overlap of 0 is falsy, so it falls into the disjoint case with disjoint = None, which
    is rejected. *)
Definition window_op (predicate : option func) (overlap disjoint : option Z) : machine :=
  match predicate with
  | Some p => window_pred_op p
  | None =>
    match overlap with
    | Some z =>
      if Z.eqb z 0
      then match disjoint with
           | Some d => if Z.leb 0 d then window_disjoint (Z.to_nat d) else fail_setup
           | None => fail_setup
           end
      else if Z.leb 0 z then window_overlap (Z.to_nat z) else fail_setup
    | None =>
      match disjoint with
      | Some d => if Z.leb 0 d then window_disjoint (Z.to_nat d) else fail_setup
      | None => fail_setup
      end
    end
  end.

(** * red (op/red.py) *)

(** A reduction argument: a function of accumulator and value, or '.' (grouping).  [r_is_count] is
    Function.is_count (function.py), which makes the accumulator of a non-grouping red start at 0. *)
Record reducer := MkRed { r_fun : func; r_group : bool; r_is_count : bool }.

Definition red_init (r : reducer) : val := if r_is_count r then VInt 0 else VNone.

(** The update loop 204-208: components are updated left to right, and those updated before a failing
    call stay updated. [inr] carries the failing call's arguments. *)
Fixpoint red_update (rs : list reducer) (acc xs : list val) : list val * option (list val) :=
  match rs, acc, xs with
  | r :: rs', a :: acc', x :: xs' =>
    match r_fun r [a; x] with
    | None => (acc, Some [a; x])
    | Some a' => let '(acc'', e) := red_update rs' acc' xs' in (a' :: acc'', e)
    end
  | _, _, _ => (acc, None)
  end.

(** x + tuple(...) (210, 241): a TypeError when the row is a list. *)
Definition append_to_row (x : val) (vs : list val) : option val :=
  match x with
  | VTuple xs => Some (VTuple (xs ++ vs))
  | _ => None
  end.

(** NonGroupingReducer 188-217.  [None] is the accumulator after a flush; receiving then fails an
    assertion (206), which aborts the command. *)
Definition red_plain (incremental : bool) (rs : list reducer) : machine :=
  mk_op (Some (map red_init rs)) (fun _ => Some (Some (map red_init rs)))
    (fun s x =>
       if Nat.ltb (length (components x)) (length rs) then fatal_error s "red" x    (* 200-201 *)
       else match s with
            | None => (s, [], Kill)
            | Some acc =>
              match red_update rs acc (components x) with
              | (acc', Some args) => fatal_error (Some acc') "red" (VTuple args)
              | (acc', None) =>
                if incremental
                then match append_to_row x acc' with
                     | Some v => (Some acc', [Data v], Ok)
                     | None => (Some acc', [], Kill)
                     end
                else (Some acc', [], Ok)
              end
            end)
    (fun s =>
       if incremental then (s, [Flush], Ok)
       else match s with
            | Some acc => (None, [Data (VTuple acc); Flush], Ok)
            | None => (None, [Flush], Ok)
            end).

(** Components at the grouping / data positions (251-261). *)
Fixpoint select_positions (which : reducer -> bool) (rs : list reducer) (xs : list val) : list val :=
  match rs, xs with
  | r :: rs', x :: xs' => if which r then x :: select_positions which rs' xs'
                          else select_positions which rs' xs'
  | _, _ => []
  end.

(** The update loop 237-239. *)
Fixpoint red_group_update (rs : list reducer) (acc xs : list val) : list val * option (list val) :=
  match rs, acc, xs with
  | r :: rs', a :: acc', x :: xs' =>
    if r_group r
    then let '(acc'', e) := red_group_update rs' acc' xs' in (x :: acc'', e)
    else match r_fun r [a; x] with
         | None => (acc, Some [a; x])
         | Some a' => let '(acc'', e) := red_group_update rs' acc' xs' in (a' :: acc'', e)
         end
  | _, _, _ => (acc, None)
  end.

(** Python dict as association list in insertion order. *)
Section Dict.
  Variable A : Type.
  Fixpoint dget (k : val) (d : list (val * A)) : option A :=
    match d with
    | [] => None
    | (k', a) :: d' => if py_eq k k' then Some a else dget k d'
    end.
  (** d[k] = a keeps the position (and the key object) of an existing key. *)
  Fixpoint dset (k : val) (a : A) (d : list (val * A)) : list (val * A) :=
    match d with
    | [] => [(k, a)]
    | (k', a') :: d' => if py_eq k k' then (k', a) :: d' else (k', a') :: dset k a d'
    end.
  Fixpoint ddel (k : val) (d : list (val * A)) : list (val * A) :=
    match d with
    | [] => []
    | (k', a') :: d' => if py_eq k k' then d' else (k', a') :: ddel k d'
    end.
End Dict.

(** GroupingReducer 220-261.  An unhashable group key is a TypeError that aborts the command (233). *)
Definition red_grouping (incremental : bool) (rs : list reducer) : machine :=
  mk_op (Some []) (fun _ => Some (Some []))
    (fun s x =>
       if Nat.ltb (length (components x)) (length rs) then fatal_error s "red" x
       else
         let key := VTuple (select_positions r_group rs (components x)) in
         match s with
         | None => (s, [], Kill)
         | Some d =>
           if hashable key then
             let acc := match dget key d with Some a => a | None => repeat VNone (length rs) end in
             match red_group_update rs acc (components x) with
             | (acc', Some args) => fatal_error (Some (dset key acc' d)) "red" (VTuple args)
             | (acc', None) =>
               let s' := Some (dset key acc' d) in
               if incremental
               then match append_to_row x (select_positions (fun r => negb (r_group r)) rs acc') with
                    | Some v => (s', [Data v], Ok)
                    | None => (s', [], Kill)
                    end
               else (s', [], Ok)
             end
           else (s, [], Kill)
         end)
    (fun s =>
       if incremental then (s, [Flush], Ok)
       else match s with
            | Some [] => (Some [], [Flush], Ok)          (* 246-248: the loop body never runs *)
            | Some d => (None, map (fun p => Data (VTuple (snd p))) d ++ [Flush], Ok)
            | None => (None, [Flush], Ok)
            end).

(** Red.setup 145-160 *)
Definition red_op (incremental : bool) (rs : list reducer) : machine :=
  if existsb r_group rs then red_grouping incremental rs else red_plain incremental rs.

(** * expand (op/expand.py) *)

(** Expander.expand 114-127 on a row's components. *)
Definition expand_components (xs : list val) : list val :=
  match xs with
  | [only] =>
    match only with
    | VTuple ys | VList ys | VGen _ ys | VSet ys => ys
    | VDict kvs => map (fun kv => VTuple [fst kv; snd kv]) kvs
    | VStruct _ kvs => map (fun kv => VTuple [VStr (fst kv); snd kv]) kvs
    | _ => xs
    end
  | _ => xs
  end.

(** SequenceExpander 130-137 *)
Definition expand_all_op : machine :=
  mk_op tt (@keep_state _)
    (fun s x => (s, map Data (expand_components (components x)), Ok))
    (@default_flush _).

(** Rebuild a row of the same type (157-161). *)
Definition rebuild (x : val) (xs : list val) : val :=
  match x with VList _ => VList xs | _ => VTuple xs end.

(** ComponentExpander 140-163; a negative position fails the assertion at 150, aborting the command. *)
Definition expand_at_op (position : Z) : machine :=
  mk_op tt (@keep_state _)
    (fun s x =>
       let xs := components x in
       if Z.leb (Z.of_nat (length xs)) position then (s, [Data x], Ok)
       else if Z.ltb position 0 then (s, [], Kill)
       else let i := Z.to_nat position in
            (s, map (fun y => Data (rebuild x (firstn i xs ++ [y] ++ skipn (S i) xs)))
                  (expand_components [nth i xs VNone]), Ok))
    (@default_flush _).

Definition expand_op (position : option Z) : machine :=
  match position with
  | None => expand_all_op
  | Some p => expand_at_op p
  end.
