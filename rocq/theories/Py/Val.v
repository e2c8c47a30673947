(** Python values as far as marcel's operators can observe them.

    Modelled: None, bool, int, str, tuple, list, set, dict, marcel.structish.Struct, generators and
    opaque objects (files, processes, ...), together with ==, hashability, truthiness and <.
    Simplifications: no floats; strings are 8-bit; set and dict equality is order-sensitive (sets and
    dicts are unhashable, so the hash-based operators never compare them); Struct, generators and
    opaque objects are compared by identity (the [nat] tag), as Python does for classes that define
    no __eq__ (structish.py:19-33). *)
From Coq Require Export String Ascii ZArith Bool Arith Lia List.
Export ListNotations.
Set Implicit Arguments.

Inductive val : Type :=
| VNone
| VBool (b : bool)
| VInt (z : Z)
| VStr (s : string)
| VTuple (xs : list val)
| VList (xs : list val)
| VSet (xs : list val)
| VDict (kvs : list (val * val))
| VStruct (id : nat) (kvs : list (string * val))
| VGen (id : nat) (xs : list val)
| VObj (id : nat).

(** Induction principle that reaches into the containers. *)
Section ValInd.
  Variable P : val -> Prop.
  Hypothesis HNone : P VNone.
  Hypothesis HBool : forall b, P (VBool b).
  Hypothesis HInt : forall z, P (VInt z).
  Hypothesis HStr : forall s, P (VStr s).
  Hypothesis HTuple : forall xs, Forall P xs -> P (VTuple xs).
  Hypothesis HList : forall xs, Forall P xs -> P (VList xs).
  Hypothesis HSet : forall xs, Forall P xs -> P (VSet xs).
  Hypothesis HDict : forall kvs, Forall (fun kv => P (fst kv) /\ P (snd kv)) kvs -> P (VDict kvs).
  Hypothesis HStruct : forall i kvs, Forall (fun kv => P (snd kv)) kvs -> P (VStruct i kvs).
  Hypothesis HGen : forall i xs, Forall P xs -> P (VGen i xs).
  Hypothesis HObj : forall i, P (VObj i).

  Fixpoint val_ind' (v : val) : P v :=
    let fix all (xs : list val) : Forall P xs :=
      match xs with
      | [] => Forall_nil _
      | x :: xs' => Forall_cons x (val_ind' x) (all xs')
      end in
    match v with
    | VNone => HNone
    | VBool b => HBool b
    | VInt z => HInt z
    | VStr s => HStr s
    | VTuple xs => HTuple (all xs)
    | VList xs => HList (all xs)
    | VSet xs => HSet (all xs)
    | VDict kvs =>
      HDict ((fix go (kvs : list (val * val)) : Forall (fun kv => P (fst kv) /\ P (snd kv)) kvs :=
                match kvs with
                | [] => Forall_nil _
                | (k, w) :: r => Forall_cons (k, w) (conj (val_ind' k) (val_ind' w)) (go r)
                end) kvs)
    | VStruct i kvs =>
      HStruct i ((fix go (kvs : list (string * val)) : Forall (fun kv => P (snd kv)) kvs :=
                    match kvs with
                    | [] => Forall_nil _
                    | (k, w) :: r => Forall_cons (k, w) (val_ind' w) (go r)
                    end) kvs)
    | VGen i xs => HGen i (all xs)
    | VObj i => HObj i
    end.
End ValInd.

(** Structural equality test. *)
Section ListEqb.
  Variables (A : Type) (eqb : A -> A -> bool).
  Fixpoint list_eqb (xs ys : list A) : bool :=
    match xs, ys with
    | [], [] => true
    | x :: xs', y :: ys' => eqb x y && list_eqb xs' ys'
    | _, _ => false
    end.
End ListEqb.

Fixpoint val_eqb (a b : val) {struct a} : bool :=
  match a, b with
  | VNone, VNone => true
  | VBool x, VBool y => Bool.eqb x y
  | VInt x, VInt y => Z.eqb x y
  | VStr x, VStr y => String.eqb x y
  | VTuple xs, VTuple ys => list_eqb val_eqb xs ys
  | VList xs, VList ys => list_eqb val_eqb xs ys
  | VSet xs, VSet ys => list_eqb val_eqb xs ys
  | VDict xs, VDict ys =>
    list_eqb (fun p q => val_eqb (fst p) (fst q) && val_eqb (snd p) (snd q)) xs ys
  | VStruct i xs, VStruct j ys =>
    Nat.eqb i j && list_eqb (fun p q => String.eqb (fst p) (fst q) && val_eqb (snd p) (snd q)) xs ys
  | VGen i xs, VGen j ys => Nat.eqb i j && list_eqb val_eqb xs ys
  | VObj i, VObj j => Nat.eqb i j
  | _, _ => false
  end.

(** Python's [True == 1], [False == 0]: booleans are compared as integers. *)
Fixpoint canon (a : val) : val :=
  match a with
  | VBool b => VInt (if b then 1 else 0)
  | VTuple xs => VTuple (map canon xs)
  | VList xs => VList (map canon xs)
  | VSet xs => VSet (map canon xs)
  | VDict kvs => VDict (map (fun kv => (canon (fst kv), canon (snd kv))) kvs)
  | _ => a
  end.

(** Python [a == b]. *)
Definition py_eq (a b : val) : bool := val_eqb (canon a) (canon b).

(** hash(a) does not raise TypeError. *)
Fixpoint hashable (a : val) : bool :=
  match a with
  | VTuple xs => forallb hashable xs
  | VList _ | VSet _ | VDict _ => false
  | _ => true
  end.

(** bool(a). *)
Definition truthy (a : val) : bool :=
  match a with
  | VNone => false
  | VBool b => b
  | VInt z => negb (Z.eqb z 0)
  | VStr s => negb (String.eqb s "")
  | VTuple xs | VList xs | VSet xs => match xs with [] => false | _ => true end
  | VDict kvs => match kvs with [] => false | _ => true end
  | VStruct _ _ | VGen _ _ | VObj _ => true
  end.

(** Python [a < b]; [None] is TypeError.  Tuples and lists: the first position where the elements
    differ (by ==) decides, else the shorter is smaller. *)
Fixpoint str_ltb (a b : string) : bool :=
  match a, b with
  | EmptyString, EmptyString => false
  | EmptyString, _ => true
  | _, EmptyString => false
  | String x a', String y b' =>
    let i := nat_of_ascii x in let j := nat_of_ascii y in
    if Nat.ltb i j then true else if Nat.ltb j i then false else str_ltb a' b'
  end.

Fixpoint py_lt (a b : val) {struct a} : option bool :=
  match canon a, canon b with
  | VInt x, VInt y => Some (Z.ltb x y)
  | VStr x, VStr y => Some (str_ltb x y)
  | _, _ =>
    match a, b with
    | VTuple xs, VTuple ys =>
      (fix go (xs ys : list val) : option bool :=
         match xs, ys with
         | [], [] => Some false
         | [], _ :: _ => Some true
         | _ :: _, [] => Some false
         | x :: xs', y :: ys' => if py_eq x y then go xs' ys' else py_lt x y
         end) xs ys
    | VList xs, VList ys =>
      (fix go (xs ys : list val) : option bool :=
         match xs, ys with
         | [], [] => Some false
         | [], _ :: _ => Some true
         | _ :: _, [] => Some false
         | x :: xs', y :: ys' => if py_eq x y then go xs' ys' else py_lt x y
         end) xs ys
    | _, _ => None
    end
  end.

(** * Rows: what an operator's [receive] is given *)

(** core.py:97, [x if type(x) in (tuple, list) else (x,)] *)
Definition wrap (x : val) : val :=
  match x with
  | VTuple _ | VList _ => x
  | _ => VTuple [x]
  end.

(** [*x] at a call site: the components of a row. *)
Definition components (x : val) : list val :=
  match x with
  | VTuple xs | VList xs => xs
  | _ => [x]
  end.

(** util.py:89-93.  Differs from [wrap] on None. *)
Definition wrap_op_input (x : val) : val :=
  match x with
  | VNone => VNone
  | VTuple _ | VList _ => x
  | _ => VTuple [x]
  end.

(** util.py:96-100 *)
Definition unwrap_op_output (x : val) : val :=
  match x with
  | VTuple [y] | VList [y] => y
  | _ => x
  end.
