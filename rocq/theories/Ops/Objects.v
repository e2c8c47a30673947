(** The objects that ls, ps and history output, compared and used as keys: marcel/object/file.py:116-135, object/process.py:35-54,
    object/historyrecord.py:26-42, object/error.py; and what unique, difference, join and sort do with them.  (In the other files of Ops these
    objects are opaque.)

    Python: what == and < do for objects of any two classes, and how sets and dicts use == and hash. *)
From Coq Require Export List Bool Arith ZArith Lia String Ascii.
Export ListNotations.
Local Open Scope list_scope.

(** [Path]: pathlib.Path; [Err]: object/error.py, which has no __eq__, so that each object is equal to itself only ([id]); [info], [command]:
    what else is in a process and in a history record.  Simplification: no floats (NaN), sets, dicts, Hosts, Structs. *)
Inductive obj :=
| None_
| Bool (b : bool)
| Int (z : Z)
| Str (s : string)
| Tuple (xs : list obj)
| List (xs : list obj)
| Path (s : string)
| File (s : string)
| Process (pid : nat) (info : nat)
| History (id : nat) (command : string)
| Err (id : nat).

Inductive exn := TypeError | AttributeError | Kill.
Inductive res (A : Type) := Ok (x : A) | Raise (e : exn).
Arguments Ok {A}. Arguments Raise {A}.
Definition bind {A B : Type} (r : res A) (f : A -> res B) : res B := match r with Ok x => f x | Raise e => Raise e end.

(** pathlib (Python 3.11): splitroot and parse_parts of _PosixFlavour: the root, and the parts that are neither empty nor . *)
Definition slash : ascii := "/"%char.
Fixpoint lstrip (s : string) : string := match s with String c s' => if Ascii.eqb c slash then lstrip s' else s | EmptyString => s end.
Fixpoint split (s : string) : list string :=
  match s with
  | EmptyString => [EmptyString]
  | String c s => if Ascii.eqb c slash then EmptyString :: split s
                  else match split s with w :: ws => String c w :: ws | [] => [String c EmptyString] end
  end.
Definition kept (w : string) : bool := negb (String.eqb w "") && negb (String.eqb w ".").
Definition cparts (s : string) : list string :=
  let t := lstrip s in
  let n := String.length s - String.length t in
  (if n =? 0 then [] else if n =? 2 then ["//"%string] else ["/"%string]) ++ filter kept (split t).
Definition list_eqb {A : Type} (f : A -> A -> bool) : list A -> list A -> bool :=
  fix go xs ys := match xs, ys with [], [] => true | x :: xs, y :: ys => f x y && go xs ys | _, _ => false end.
Definition path_eq (s t : string) : bool := list_eqb String.eqb (cparts s) (cparts t).

Definition number (a : obj) : option Z := match a with Bool b => Some (if b then 1 else 0)%Z | Int z => Some z | _ => None end.
(** file.py:119, process.py:38, historyrecord.py:26: other.path, other.pid, other.id are taken whatever other is; no object of another class has
    them.  Python asks the right operand, too, when the left one does not know the answer. *)
Definition strict (a : obj) : bool := match a with File _ | Process _ _ | History _ _ => true | _ => false end.

(** a == b *)
Fixpoint eq (a b : obj) {struct a} : res bool :=
  let items := fix items xs ys :=
    match xs, ys with
    | [], [] => Ok true
    | x :: xs, y :: ys => match eq x y with Ok true => items xs ys | r => r end
    | _, _ => Ok false
    end in
  match a, b with
  | File s, File t => Ok (path_eq s t)
  | Process p _, Process q _ => Ok (p =? q)
  | History i _, History j _ => Ok (i =? j)
  | Tuple xs, Tuple ys => items xs ys
  | List xs, List ys => if List.length xs =? List.length ys then items xs ys else Ok false
  | _, _ =>
    if strict a || strict b then Raise AttributeError else
    match number a, number b with
    | Some x, Some y => Ok (x =? y)%Z
    | _, _ =>
      match a, b with
      | None_, None_ => Ok true
      | Str s, Str t => Ok (String.eqb s t)
      | Path s, Path t => Ok (path_eq s t)
      | Err i, Err j => Ok (i =? j)
      | _, _ => Ok false
      end
    end
  end.
(** The comparison of two sequences, as in [eq] *)
Fixpoint eqs (xs ys : list obj) : res bool :=
  match xs, ys with
  | [], [] => Ok true
  | x :: xs, y :: ys => match eq x y with Ok true => eqs xs ys | r => r end
  | _, _ => Ok false
  end.

(** Strings and sequences of them, in the order of the characters' codes *)
Fixpoint str_lt (s t : string) : bool :=
  match s, t with
  | _, EmptyString => false
  | EmptyString, _ => true
  | String c s, String d t => if Ascii.eqb c d then str_lt s t else nat_of_ascii c <? nat_of_ascii d
  end.
Fixpoint strs_lt (xs ys : list string) : bool :=
  match xs, ys with
  | _, [] => false
  | [], _ => true
  | x :: xs, y :: ys => if String.eqb x y then strs_lt xs ys else str_lt x y
  end.
Definition path_lt (s t : string) : bool := strs_lt (cparts s) (cparts t).

(** a < b: file.py:125, process.py:44, historyrecord.py:32.  Of two sequences, the first items that are not equal decide. *)
Fixpoint lt (a b : obj) {struct a} : res bool :=
  let items := fix items xs ys :=
    match xs, ys with
    | _, [] => Ok false
    | [], _ => Ok true
    | x :: xs, y :: ys => match eq x y with Ok true => items xs ys | Ok false => lt x y | Raise e => Raise e end
    end in
  match a, b with
  | File s, File t => Ok (path_lt s t)
  | Process p _, Process q _ => Ok (p <? q)
  | History i _, History j _ => Ok (i <? j)
  | Tuple xs, Tuple ys => items xs ys
  | List xs, List ys => items xs ys
  | _, _ =>
    if strict a || strict b then Raise AttributeError else
    match number a, number b with
    | Some x, Some y => Ok (x <? y)%Z
    | _, _ =>
      match a, b with
      | Str s, Str t => Ok (str_lt s t)
      | Path s, Path t => Ok (path_lt s t)
      | _, _ => Raise TypeError
      end
    end
  end.
Fixpoint lts (xs ys : list obj) : res bool :=
  match xs, ys with
  | _, [] => Ok false
  | [], _ => Ok true
  | x :: xs, y :: ys => match eq x y with Ok true => lts xs ys | Ok false => lt x y | Raise e => Raise e end
  end.

(** hash.  Those of strings, tuples, None and plain objects are any functions (they differ from run to run). *)
Record hashes := mkh { h_none : Z; h_str : string -> Z; h_tuple : list Z -> Z; h_obj : nat -> Z }.
Definition h_int (z : Z) : Z := let r := Z.rem z (2 ^ 61 - 1) in if (r =? -1)%Z then (-2)%Z else r.
(** file.py:116, process.py:35.  HistoryRecord defines __eq__ only, so Python sets its __hash__ to None. *)
Fixpoint hash (H : hashes) (a : obj) : res Z :=
  let items := fix items xs :=
    match xs with [] => Ok [] | x :: xs => bind (hash H x) (fun h => bind (items xs) (fun hs => Ok (h :: hs))) end in
  match a with
  | None_ => Ok (h_none H)
  | Bool b => Ok (h_int (if b then 1 else 0))
  | Int z => Ok (h_int z)
  | Str s => Ok (h_str H s)
  | Tuple xs => bind (items xs) (fun hs => Ok (h_tuple H hs))
  | List _ => Raise TypeError
  | Path s | File s => Ok (h_tuple H (map (h_str H) (cparts s)))
  | Process pid _ => Ok (h_int (Z.of_nat pid))
  | History _ _ => Raise TypeError
  | Err i => Ok (h_obj H i)
  end.
Fixpoint hash_all (H : hashes) (xs : list obj) : res (list Z) :=
  match xs with [] => Ok [] | x :: xs => bind (hash H x) (fun h => bind (hash_all H xs) (fun hs => Ok (h :: hs))) end.

(** A set or a dict: the entries with their hashes; an entry with the same hash is compared with what is looked for (the entry on the left).
    Simplification: entries with the same hash are compared in the order they were made. *)
Fixpoint find {V : Type} (h : Z) (x : obj) (d : list (Z * obj * V)) : res (option V) :=
  match d with
  | [] => Ok None
  | (h', y, v) :: d => if (h' =? h)%Z then bind (eq y x) (fun same => if same : bool then Ok (Some v) else find h x d) else find h x d
  end.
Fixpoint update {V : Type} (h : Z) (x : obj) (v : option V) (d : list (Z * obj * V)) : res (list (Z * obj * V)) :=
  match d with
  | [] => Ok (match v with Some v => [(h, x, v)] | None => [] end)
  | (h', y, v') :: d =>
    if (h' =? h)%Z
    then bind (eq y x) (fun same => if same : bool then Ok (match v with Some v => (h', y, v) :: d | None => d end)
                                    else bind (update h x v d) (fun d => Ok ((h', y, v') :: d)))
    else bind (update h x v d) (fun d => Ok ((h', y, v') :: d))
  end.

(** What has been sent, and the exception that ended it, if any.  TypeError is caught, and becomes KillCommandException *)
Definition output : Type := list (list obj) * option exn.
Definition caught (e : exn) : exn := match e with TypeError => Kill | _ => e end.
Definition sends (xs : list (list obj)) (o : output) : output := (xs ++ fst o, snd o).

(** op/unique.py:76-91, for a stream of tuples *)
Fixpoint unique (H : hashes) (seen : list (Z * obj * unit)) (xs : list (list obj)) : output :=
  match xs with
  | [] => ([], None)
  | x :: xs =>
    match bind (hash H (Tuple x)) (fun h => bind (find h (Tuple x) seen) (fun f =>
          match f with Some _ => Ok None | None => bind (update h (Tuple x) (Some tt) seen) (fun d => Ok (Some d)) end)) with
    | Raise e => ([], Some (caught e))
    | Ok None => unique H seen xs
    | Ok (Some seen) => sends [x] (unique H seen xs)
    end
  end.
(** 94-104: at first current is None, which is different from any tuple *)
Fixpoint unique_consecutive (current : option (list obj)) (xs : list (list obj)) : output :=
  match xs with
  | [] => ([], None)
  | x :: xs =>
    match match current with None => Ok false | Some y => eq (Tuple y) (Tuple x) end with
    | Raise e => ([], Some e)
    | Ok true => unique_consecutive current xs
    | Ok false => sends [x] (unique_consecutive (Some x) xs)
    end
  end.

(** op/difference.py:93-102 *)
Fixpoint count_all (H : hashes) (d : list (Z * obj * nat)) (xs : list (list obj)) : res (list (Z * obj * nat)) :=
  match xs with
  | [] => Ok d
  | x :: xs =>
    bind (hash H (Tuple x)) (fun h => bind (find h (Tuple x) d) (fun c =>
    bind (update h (Tuple x) (Some (match c with None => 1 | Some c => c + 1 end)) d) (fun d => count_all H d xs)))
  end.
(** 77-91 *)
Fixpoint differences (H : hashes) (d : list (Z * obj * nat)) (xs : list (list obj)) : output :=
  match xs with
  | [] => ([], None)
  | x :: xs =>
    match bind (hash H (Tuple x)) (fun h => bind (find h (Tuple x) d) (fun c =>
          match c with
          | None => Ok None
          | Some c => bind (update h (Tuple x) (if c =? 1 then None else Some (c - 1)) d) (fun d => Ok (Some d))
          end)) with
    | Raise e => ([], Some (caught e))
    | Ok None => sends [x] (differences H d xs)
    | Ok (Some d) => differences H d xs
    end
  end.
(** The pipeline argument is run when the first tuple arrives *)
Definition difference (H : hashes) (right left : list (list obj)) : output :=
  match left with
  | [] => ([], None)
  | _ => match count_all H [] right with Raise e => ([], Some (caught e)) | Ok d => differences H d left end
  end.

(** op/join.py:135-147.  Simplification: a single match and a list of matches are not distinguished; a tuple is not empty (127, IndexError) *)
Fixpoint load_inner (H : hashes) (d : list (Z * obj * list (list obj))) (xs : list (list obj)) : res (list (Z * obj * list (list obj))) :=
  match xs with
  | [] => Ok d
  | x :: xs =>
    let k := hd None_ x in
    bind (hash H k) (fun h => bind (find h k d) (fun c =>
    bind (update h k (Some (match c with None => [x] | Some m => m ++ [x] end)) d) (fun d => load_inner H d xs)))
  end.
(** 107-124 *)
Fixpoint joins (H : hashes) (keep : bool) (d : list (Z * obj * list (list obj))) (xs : list (list obj)) : output :=
  match xs with
  | [] => ([], None)
  | x :: xs =>
    match bind (hash H (hd None_ x)) (fun h => find h (hd None_ x) d) with
    | Raise e => ([], Some (caught e))
    | Ok None => sends (if keep then [x] else []) (joins H keep d xs)
    | Ok (Some m) => sends (map (fun y => x ++ tl y) m) (joins H keep d xs)
    end
  end.
Definition join (H : hashes) (keep : bool) (right left : list (list obj)) : output :=
  match left with
  | [] => ([], None)
  | _ => match load_inner H [] right with Raise e => ([], Some (caught e)) | Ok d => joins H keep d left end
  end.

(** op/sort.py:71-88, without a key.  Simplification: list.sort by insertion, each tuple behind all that are not greater (Python's algorithm
    makes other comparisons, of which it needs fewer; the outcome is the same if < is an order, C06) *)
Fixpoint insert (x : list obj) (l : list (list obj)) : res (list (list obj)) :=
  match l with
  | [] => Ok [x]
  | y :: l => bind (lt (Tuple x) (Tuple y)) (fun b => if b : bool then Ok (x :: y :: l) else bind (insert x l) (fun l => Ok (y :: l)))
  end.
Fixpoint insert_all (l xs : list (list obj)) : res (list (list obj)) :=
  match xs with [] => Ok l | x :: xs => bind (insert x l) (fun l => insert_all l xs) end.
Definition sort_run (xs : list (list obj)) : output :=
  match insert_all [] xs with Ok l => (l, None) | Raise e => ([], Some (caught e)) end.
