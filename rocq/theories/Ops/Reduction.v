(** The reduction functions that have a symbol (reduction.py, function.py:82-107), and red, squish with symbols. *)
From Coq Require Import List ZArith String Bool Arith.
From Verif.Py Require Import Val.
From Verif.Exec Require Import Machine.
From Verif.Ops Require Import Basic Group.
Import ListNotations.
Local Open Scope string_scope.
Local Open Scope list_scope.

(** ** Python's binary operators, on the values of the model

    Numbers are integers and booleans (bool is a subclass of int).  Not modelled: floats, sets (whose ^ & | are
    set operations), dicts, and objects with operators of their own; for these the functions below are a TypeError. *)

Definition as_int (v : val) : option Z :=
  match v with VInt z => Some z | VBool b => Some (if b then 1%Z else 0%Z) | _ => None end.

Definition on_ints (f : Z -> Z -> Z) (a b : val) : option val :=
  match as_int a, as_int b with
  | Some x, Some y => Some (VInt (f x y))
  | _, _ => None
  end.

(** a + b *)
Definition py_add (a b : val) : option val :=
  match a, b with
  | VStr s, VStr t => Some (VStr (s ++ t))
  | VList xs, VList ys => Some (VList (xs ++ ys))
  | VTuple xs, VTuple ys => Some (VTuple (xs ++ ys))
  | _, _ => on_ints Z.add a b
  end.

Fixpoint times_str (n : nat) (s : string) : string := match n with O => "" | S n' => (s ++ times_str n' s)%string end.
Fixpoint times_list (n : nat) (xs : list val) : list val := match n with O => [] | S n' => xs ++ times_list n' xs end.
Definition times_seq (a : val) (n : Z) : option val :=
  match a with
  | VStr s => Some (VStr (times_str (Z.to_nat n) s))
  | VList xs => Some (VList (times_list (Z.to_nat n) xs))
  | VTuple xs => Some (VTuple (times_list (Z.to_nat n) xs))
  | _ => None
  end.

(** a * b *)
Definition py_mul (a b : val) : option val :=
  match as_int a, as_int b with
  | Some x, Some y => Some (VInt (x * y))
  | Some x, None => times_seq b x
  | None, Some y => times_seq a y
  | None, None => None
  end.

(** a ^ b, a & b, a | b: of two booleans, a boolean *)
Definition py_bits (f : Z -> Z -> Z) (g : bool -> bool -> bool) (a b : val) : option val :=
  match a, b with
  | VBool x, VBool y => Some (VBool (g x y))
  | _, _ => on_ints f a b
  end.

(** max(a, b): b if b > a, else a;  min(a, b): b if b < a, else a *)
Definition py_max (a b : val) : option val :=
  match py_lt a b with Some c => Some (if c then b else a) | None => None end.
Definition py_min (a b : val) : option val :=
  match py_lt b a with Some c => Some (if c then b else a) | None => None end.

(** ** reduction.py *)

(** x if acc is None else ... *)
Definition unless_none (f : val -> val -> option val) (acc x : val) : option val :=
  match acc with VNone => Some x | _ => f acc x end.

Definition r_plus := unless_none py_add.                                                       (* 17-18 *)
Definition r_times := unless_none py_mul.                                                      (* 21-22 *)
Definition r_xor := unless_none (py_bits Z.lxor xorb).                                         (* 25-26 *)
Definition r_bit_and := unless_none (py_bits Z.land andb).                                     (* 29-30 *)
Definition r_bit_or := unless_none (py_bits Z.lor orb).                                        (* 33-34 *)
Definition r_and := unless_none (fun acc x => Some (if truthy acc then x else acc)).           (* 37-38 *)
Definition r_or := unless_none (fun acc x => Some (if truthy acc then acc else x)).            (* 41-42 *)
Definition r_max := unless_none py_max.                                                        (* 45-46 *)
Definition r_min := unless_none py_min.                                                        (* 49-50 *)
(** 53-54; the accumulator is None or a number *)
Definition r_count (acc x : val) : option val :=
  match acc with VNone => Some (VInt 1) | _ => py_add acc (VInt 1) end.
(** 57-62.  acc.append changes the list in place: see [concat_run] below for what that does. *)
Definition r_concat (acc x : val) : option val :=
  match acc with
  | VNone => Some (VList [x])
  | VList xs => Some (VList (xs ++ [x]))
  | _ => None
  end.
(** 66-67: assert False *)
Definition r_grouping (acc x : val) : option val := None.

(** ** SymbolFunction.FUNCTIONS (function.py:84-97) *)
Definition symbol_function (symbol : string) : option (val -> val -> option val) :=
  match symbol with
  | "+" => Some r_plus
  | "*" => Some r_times
  | "^" => Some r_xor
  | "&" => Some r_bit_and
  | "|" => Some r_bit_or
  | "and" => Some r_and
  | "or" => Some r_or
  | "max" => Some r_max
  | "min" => Some r_min
  | "count" => Some r_count
  | "concat" => Some r_concat
  | "." => Some r_grouping
  | _ => None
  end.

Definition as_func (f : val -> val -> option val) : func :=
  fun args => match args with [acc; x] => f acc x | _ => None end.

(** SymbolFunction (function.py:99-111): is_grouping compares the symbol, is_count (44-45) the function. *)
Definition symbol (s : string) : option reducer :=
  match symbol_function s with
  | Some f => Some (MkRed (as_func f) (String.eqb s ".") (String.eqb s "count"))
  | None => None
  end.

Fixpoint symbols (ss : list string) : option (list reducer) :=
  match ss with
  | [] => Some []
  | s :: ss' => match symbol s, symbols ss' with
                | Some r, Some rs => Some (r :: rs)
                | _, _ => None
                end
  end.

(** red s1 ... sn (op/red.py:121-160).  A word that is no symbol may name a function: not here. *)
Definition red_symbols (incremental : bool) (ss : list string) : option machine :=
  match symbols ss with Some rs => Some (red_op incremental rs) | None => None end.

(** squish s (op/squish.py:47-76); without a symbol, + (67-68) *)
Definition squish_symbol (s : option string) : option machine :=
  match symbol (match s with Some s => s | None => "+" end) with
  | Some r => Some (squish_op (r_fun r))
  | None => None
  end.

(** ** concat with the list it changes in place

    NonGroupingReducer.receive (op/red.py:198-210) for red --incremental concat on rows of one value: the accumulator
    is a reference to a list (an index into the heap), which r_concat creates once and then appends to; each output
    row holds the reference. *)
Record concat_state := MkConcat { heap : list (list val); accumulator : option nat }.

Fixpoint append_at (l : nat) (x : val) (h : list (list val)) : list (list val) :=
  match h, l with
  | xs :: h', O => (xs ++ [x]) :: h'
  | xs :: h', S l' => xs :: append_at l' x h'
  | [], _ => []
  end.

Definition concat_receive (s : concat_state) (x : val) : concat_state * nat :=
  match accumulator s with
  | None => (MkConcat (heap s ++ [[x]]) (Some (length (heap s))), length (heap s))
  | Some l => (MkConcat (append_at l x (heap s)) (Some l), l)
  end.

(** The rows sent, each with the heap at the time it is sent, and the heap at the end. *)
Fixpoint concat_run (s : concat_state) (xs : list val) : list (val * nat * list (list val)) * list (list val) :=
  match xs with
  | [] => ([], heap s)
  | x :: xs' =>
      let '(s', l) := concat_receive s x in
      let '(out, h) := concat_run s' xs' in
      ((x, l, heap s') :: out, h)
  end.

Definition concat_incremental (xs : list val) := concat_run (MkConcat [] None) xs.

(** What a row shows, in a given heap. *)
Definition row_in (h : list (list val)) (x : val) (l : nat) : val := VTuple [x; VList (nth l h [])].

(** Seen by an operator that looks at each row as it arrives. *)
Definition seen_at_once (xs : list val) : list val :=
  map (fun '(x, l, h) => row_in h x l) (fst (concat_incremental xs)).
(** Seen by one that keeps the rows and looks at them at the end (sort, reverse, gather, store ...). *)
Definition seen_at_the_end (xs : list val) : list val :=
  map (fun '(x, l, _) => row_in (snd (concat_incremental xs)) x l) (fst (concat_incremental xs)).
