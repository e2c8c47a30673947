(* What JSON support is meant to guarantee (C40). *)
From Coq Require Import Ascii String List Bool Arith ZArith.
From Verif.Sys Require Import Csv Json.
Import ListNotations.

(* The Python value that a JSON text stands for, with dicts for its objects: the last of several
   members with the same key counts. *)
Definition json_loads (t : tree) : pv := build (fun d => d) t.

(* The value with its objects taken for dicts *)
Fixpoint as_dicts (x : pv) : pv :=
  match x with
  | VList l => VList (map as_dicts l)
  | VDict l => VDict (map (fun p => (fst p, as_dicts (snd p))) l)
  | VObj l => VDict (map (fun p => (fst p, as_dicts (snd p))) l)
  | _ => x
  end.

(* The tree that spells a value *)
Fixpoint spell (x : pv) : tree :=
  match x with
  | VNull => TNull
  | VBool b => TBool b
  | VInt z => TInt z
  | VFloat r => TFloat r
  | VStr s => TStr s
  | VList l => TArr (map spell l)
  | VDict l | VObj l => TObj (map (fun p => (fst p, spell (snd p))) l)
  end.

(* json_format writes x as the tree t *)
Definition formats (x : pv) (t : tree) : Prop := exists n, forall m, n <= m -> encode_in m x = Some t.

(* Where a member can be found: by key in an object, by position in an array *)
Inductive step := Key (k : text) | Pos (i : nat).

Fixpoint follow (path : list step) (x : pv) : option pv :=
  match path with
  | [] => Some x
  | Key k :: path' =>
    match x with
    | VDict l => match dict_get k l with Some v => follow path' v | None => None end
    | _ => None
    end
  | Pos i :: path' =>
    match x with
    | VList l => match nth_error l i with Some v => follow path' v | None => None end
    | _ => None
    end
  end.

(* The same on the objects that json_parse gives, by x.k and x[i] *)
Fixpoint navigate (path : list step) (x : pv) : option pv :=
  match path with
  | [] => Some x
  | Key k :: path' => match getattr x k with Member v => navigate path' v | _ => None end
  | Pos i :: path' =>
    match x with
    | VList l => match nth_error l i with Some v => navigate path' v | None => None end
    | _ => None
    end
  end.

(* The same, by x['k'] and x[i] *)
Fixpoint navigate_by_item (path : list step) (x : pv) : option pv :=
  match path with
  | [] => Some x
  | Key k :: path' => match getitem x k with Member v => navigate_by_item path' v | _ => None end
  | Pos i :: path' =>
    match x with
    | VList l => match nth_error l i with Some v => navigate_by_item path' v | None => None end
    | _ => None
    end
  end.
