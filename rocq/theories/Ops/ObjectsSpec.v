(** What a user expects of files, processes and history records in unique, difference, join and sort: a file is its path, a process its
    number, a history record its number. *)
From Verif.Ops Require Export Objects.
From Coq Require Export Sorting.Permutation Sorting.Sorted.
Local Open Scope list_scope.

(** The path named by a string: where it starts, and its components *)
Inductive start := Relative | Root | Double_root.
Definition components (s : string) : list string := filter (fun w => negb (String.eqb w "") && negb (String.eqb w ".")) (split s).
Definition starts (s : string) : start :=
  match s with
  | String "/" (String "/" (String "/" _)) => Root
  | String "/" (String "/" _) => Double_root
  | String "/" _ => Root
  | _ => Relative
  end.

(** What matters of an object *)
Inductive key :=
| KNone | KInt (z : Z) | KStr (s : string) | KTuple (ks : list key) | KList (ks : list key)
| KPath (r : start) (cs : list string) | KFile (r : start) (cs : list string) | KProcess (pid : nat) | KHistory (id : nat) | KErr (id : nat).
Fixpoint key_of (a : obj) : key :=
  match a with
  | None_ => KNone
  | Bool b => KInt (if b then 1 else 0)
  | Int z => KInt z
  | Str s => KStr s
  | Tuple xs => KTuple (map key_of xs)
  | List xs => KList (map key_of xs)
  | Path s => KPath (starts s) (components s)
  | File s => KFile (starts s) (components s)
  | Process pid _ => KProcess pid
  | History id _ => KHistory id
  | Err id => KErr id
  end.
Definition keys (x : list obj) : list key := map key_of x.

(** Objects that can be compared: no files, processes or history records are compared with anything else.  In tuples and lists, this holds
    position by position. *)
Inductive comparable : obj -> obj -> Prop :=
| c_file : forall s t, comparable (File s) (File t)
| c_process : forall p i q j, comparable (Process p i) (Process q j)
| c_history : forall i c j d, comparable (History i c) (History j d)
| c_tuple : forall xs ys, (forall n x y, nth_error xs n = Some x -> nth_error ys n = Some y -> comparable x y) -> comparable (Tuple xs) (Tuple ys)
| c_list : forall xs ys, (forall n x y, nth_error xs n = Some x -> nth_error ys n = Some y -> comparable x y) -> comparable (List xs) (List ys)
| c_other : forall a b, strict a = false -> strict b = false -> (forall xs ys, a = Tuple xs -> b <> Tuple ys) -> (forall xs ys, a = List xs -> b <> List ys) -> comparable a b.
(** There are no lists and no history records in it *)
Inductive can_be_key : obj -> Prop :=
| k_tuple : forall xs, (forall x, In x xs -> can_be_key x) -> can_be_key (Tuple xs)
| k_other : forall a, (forall xs, a <> Tuple xs) -> (forall xs, a <> List xs) -> (forall i c, a <> History i c) -> can_be_key a.

(** What there is to be ordered: numbers; strings; files (and paths), by their parts; processes; history records; tuples and lists of such *)
Fixpoint prior_str (s t : string) : Prop :=
  match s, t with
  | _, EmptyString => False
  | EmptyString, _ => True
  | String c s, String d t => nat_of_ascii c < nat_of_ascii d \/ (c = d /\ prior_str s t)
  end.
Inductive prior_list {A : Type} (R : A -> A -> Prop) : list A -> list A -> Prop :=
| pl_end : forall y ys, prior_list R [] (y :: ys)
| pl_here : forall x y xs ys, R x y -> prior_list R (x :: xs) (y :: ys)
| pl_later : forall x xs ys, prior_list R xs ys -> prior_list R (x :: xs) (x :: ys).
(** The root is a part, too *)
Definition path_parts (r : start) (cs : list string) : list string :=
  match r with Relative => cs | Root => "/"%string :: cs | Double_root => "//"%string :: cs end.
Inductive prior : key -> key -> Prop :=
| p_int : forall x y, (x < y)%Z -> prior (KInt x) (KInt y)
| p_str : forall s t, prior_str s t -> prior (KStr s) (KStr t)
| p_path : forall r cs q ds, prior_list prior_str (path_parts r cs) (path_parts q ds) -> prior (KPath r cs) (KPath q ds)
| p_file : forall r cs q ds, prior_list prior_str (path_parts r cs) (path_parts q ds) -> prior (KFile r cs) (KFile q ds)
| p_process : forall p q, p < q -> prior (KProcess p) (KProcess q)
| p_history : forall i j, i < j -> prior (KHistory i) (KHistory j)
| p_tuple : forall xs ys, prior_list prior xs ys -> prior (KTuple xs) (KTuple ys)
| p_list : forall xs ys, prior_list prior xs ys -> prior (KList xs) (KList ys).
(** Objects of the same kind, position by position *)
Inductive orderable : obj -> obj -> Prop :=
| o_number : forall a b x y, number a = Some x -> number b = Some y -> orderable a b
| o_str : forall s t, orderable (Str s) (Str t)
| o_path : forall s t, orderable (Path s) (Path t)
| o_file : forall s t, orderable (File s) (File t)
| o_process : forall p i q j, orderable (Process p i) (Process q j)
| o_history : forall i c j d, orderable (History i c) (History j d)
| o_tuple : forall xs ys, (forall n x y, nth_error xs n = Some x -> nth_error ys n = Some y -> orderable x y) -> orderable (Tuple xs) (Tuple ys)
| o_list : forall xs ys, (forall n x y, nth_error xs n = Some x -> nth_error ys n = Some y -> orderable x y) -> orderable (List xs) (List ys).

(** A stream of such tuples *)
Definition stream (R : obj -> obj -> Prop) (xs : list (list obj)) : Prop := forall x y, In x xs -> In y xs -> R (Tuple x) (Tuple y).
Definition usable (xs : list (list obj)) : Prop := forall x, In x xs -> can_be_key (Tuple x).

(** unique: those that have no equal before them; unique -c: no equal just before them *)
Inductive firsts : list (list obj) -> list (list obj) -> list (list obj) -> Prop :=
| f_nil : forall before, firsts before [] []
| f_new : forall before x xs ys, ~ In (keys x) (map keys before) -> firsts (before ++ [x]) xs ys -> firsts before (x :: xs) (x :: ys)
| f_old : forall before x xs ys, In (keys x) (map keys before) -> firsts (before ++ [x]) xs ys -> firsts before (x :: xs) ys.
Inductive changes : option (list obj) -> list (list obj) -> list (list obj) -> Prop :=
| ch_nil : forall p, changes p [] []
| ch_new : forall p x xs ys, (forall y, p = Some y -> keys y <> keys x) -> changes (Some x) xs ys -> changes p (x :: xs) (x :: ys)
| ch_old : forall y x xs ys, keys y = keys x -> changes (Some x) xs ys -> changes (Some y) (x :: xs) ys.
(** difference: the n-th tuple of its kind is left out if there are n of them on the right *)
Inductive occurs {A : Type} (a : A) : nat -> list A -> Prop :=
| oc_nil : occurs a 0 []
| oc_here : forall n l, occurs a n l -> occurs a (S n) (a :: l)
| oc_not : forall n b l, a <> b -> occurs a n l -> occurs a n (b :: l).
Inductive remaining (right : list (list obj)) : list (list obj) -> list (list obj) -> list (list obj) -> Prop :=
| r_nil : forall before, remaining right before [] []
| r_out : forall before x xs ys n m, occurs (keys x) n (map keys before) -> occurs (keys x) m (map keys right) -> n < m ->
    remaining right (before ++ [x]) xs ys -> remaining right before (x :: xs) ys
| r_in : forall before x xs ys n m, occurs (keys x) n (map keys before) -> occurs (keys x) m (map keys right) -> m <= n ->
    remaining right (before ++ [x]) xs ys -> remaining right before (x :: xs) (x :: ys).
(** join: each tuple with those on the right whose first component is equal, in order *)
Inductive matches (k : key) : list (list obj) -> list (list obj) -> Prop :=
| m_nil : matches k [] []
| m_yes : forall a y ys zs, key_of a = k -> matches k ys zs -> matches k ((a :: y) :: ys) (y :: zs)
| m_no : forall a y ys zs, key_of a <> k -> matches k ys zs -> matches k ((a :: y) :: ys) zs.
Inductive joined (keep : bool) (right : list (list obj)) : list (list obj) -> list (list obj) -> Prop :=
| j_nil : joined keep right [] []
| j_some : forall a x xs ms ys, matches (key_of a) right ms -> ms <> [] -> joined keep right xs ys ->
    joined keep right ((a :: x) :: xs) (map (fun m => (a :: x) ++ m) ms ++ ys)
| j_none : forall a x xs ys, matches (key_of a) right [] -> joined keep right xs ys ->
    joined keep right ((a :: x) :: xs) (if keep then (a :: x) :: ys else ys).
