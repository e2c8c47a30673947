(* JSON (C40): json_parse and json_format (builtin.py:61-66), read --json (read.py:268-281), which all
   use jsonutil.py, and the objects that JSON objects become (structish.py).

   Python's json library is modelled at its interface: a text is taken as the tree that the library's
   scanner finds in it (how texts and trees correspond is the library's business and is not modelled), the decoder calls its object hook on
   every dict once its members have been built, and the encoder calls [default] on whatever is not a
   str, number, bool, None, list or dict. *)
From Coq Require Import Ascii String List Bool Arith ZArith.
From Verif.Sys Require Import Csv.
Import ListNotations.

(* The tree of a JSON text.  An object may mention a key twice.  A float is represented by its repr. *)
Inductive tree :=
| TNull
| TBool (b : bool)
| TInt (z : Z)
| TFloat (r : text)
| TStr (t : text)
| TArr (l : list tree)
| TObj (l : list (text * tree)).

(* The Python values at hand.  VObj is a Struct, represented by its __dict__ (structish.py:16-28).
   Keys are strings: those of other types do not come from JSON. *)
Inductive pv :=
| VNull
| VBool (b : bool)
| VInt (z : Z)
| VFloat (r : text)
| VStr (t : text)
| VList (l : list pv)
| VDict (l : list (text * pv))
| VObj (l : list (text * pv)).

Definition text_eqb (a b : text) : bool := if list_eq_dec ascii_dec a b then true else false.

(* d[k] = v: a key that is there keeps its place *)
Fixpoint dict_set (k : text) (v : pv) (d : list (text * pv)) : list (text * pv) :=
  match d with
  | [] => [(k, v)]
  | (k', v') :: d' => if text_eqb k k' then (k', v) :: d' else (k', v') :: dict_set k v d'
  end.

(* dict(pairs) *)
Definition dict_of (pairs : list (text * pv)) : list (text * pv) :=
  fold_left (fun d p => dict_set (fst p) (snd p) d) pairs [].

(* d[k] *)
Fixpoint dict_get (k : text) (d : list (text * pv)) : option pv :=
  match d with
  | [] => None
  | (k', v) :: d' => if text_eqb k k' then Some v else dict_get k d'
  end.

(* JSONUtil.dict_to_object (jsonutil.py:36-45) *)
Fixpoint dict_to_object (j : pv) : pv :=
  match j with
  | VDict l => VObj (map (fun p => (fst p, dict_to_object (snd p))) l)
  | VList l => VList (map dict_to_object l)
  | _ => j
  end.

(* The library's decoder.  [hook] is its object_hook, called on each dict after its members have been
   decoded (with their own calls of the hook). *)
Fixpoint build (hook : pv -> pv) (t : tree) : pv :=
  match t with
  | TNull => VNull
  | TBool b => VBool b
  | TInt z => VInt z
  | TFloat r => VFloat r
  | TStr s => VStr s
  | TArr l => VList (map (build hook) l)
  | TObj l => hook (VDict (dict_of (map (fun p => (fst p, build hook (snd p))) l)))
  end.

(* JSONUtil.decoder.decode (jsonutil.py:22-25) *)
Definition decode (t : tree) : pv := build dict_to_object t.

(* JSONUtil.object_to_dict (jsonutil.py:47-52): numbers, strings, lists and dicts have no __dict__, so
   they are returned as they are. *)
Fixpoint object_to_dict (x : pv) : pv :=
  match x with
  | VObj l => VDict (map (fun p => (fst p, object_to_dict (snd p))) l)
  | _ => x
  end.

(* The library's encoder, with CustomEncoder.default (jsonutil.py:27-30): the tree of the text that it
   writes.  The number bounds the nesting; None says it has been exceeded. *)
Definition all_some {A} (l : list (option A)) : option (list A) :=
  fold_right (fun o acc => match o, acc with Some x, Some xs => Some (x :: xs) | _, _ => None end) (Some []) l.

Fixpoint encode_in (n : nat) (x : pv) : option tree :=
  match n with
  | O => None
  | S n' =>
    match x with
    | VNull => Some TNull
    | VBool b => Some (TBool b)
    | VInt z => Some (TInt z)
    | VFloat r => Some (TFloat r)
    | VStr s => Some (TStr s)
    | VList l => option_map TArr (all_some (map (encode_in n') l))
    | VDict l =>
      option_map TObj
        (all_some (map (fun p => option_map (pair (fst p)) (encode_in n' (snd p))) l))
    | VObj l => encode_in n' (object_to_dict x)
    end
  end.

(* Attribute access on a Struct.  Its class has three data descriptors, which come before the
   object's own __dict__ (Python's object.__getattribute__); what they give is not modelled. *)
Definition class_attributes : list text :=
  [list_ascii_of_string "__class__"; list_ascii_of_string "__dict__"; list_ascii_of_string "__weakref__"].

Inductive access := Member (v : pv) | OfClass (name : text) | Fails.

(* o.k *)
Definition getattr (o : pv) (k : text) : access :=
  match o with
  | VObj l =>
    if in_dec (list_eq_dec ascii_dec) k class_attributes then OfClass k
    else match dict_get k l with Some v => Member v | None => Fails end
  | _ => Fails
  end.

(* o[k] (structish.py:21-22, and a dict's own) *)
Definition getitem (o : pv) (k : text) : access :=
  match o with
  | VObj l | VDict l => match dict_get k l with Some v => Member v | None => Fails end
  | _ => Fails
  end.
