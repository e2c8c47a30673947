(** Vocabulary in which the properties of operators are stated. Nothing here is part of the model. *)
From Verif.Ops Require Export Nested.
From Verif.Exec Require Export MachineFacts.
Set Implicit Arguments.
Local Open Scope string_scope.
Local Open Scope list_scope.

(** A stream before its end: tuples and Errors only. *)
Definition open_stream (es : list event) : Prop := forallb not_flush es = true.

Inductive sublist (A : Type) : list A -> list A -> Prop :=
| sub_nil : sublist [] []
| sub_skip : forall x a b, sublist a b -> sublist a (x :: b)
| sub_take : forall x a b, sublist a b -> sublist (x :: a) (x :: b).

Definition lastn (A : Type) (n : nat) (l : list A) : list A := skipn (length l - n) l.

(** Keys of one shape: ints (and bools), strings, or tuples/lists of such shapes component by component. *)
Inductive kty := KInt | KStr | KTuple (ts : list kty) | KList (t : kty).

Fixpoint has_kty (t : kty) (v : val) {struct t} : Prop :=
  match t, v with
  | KInt, VInt _ => True
  | KInt, VBool _ => True
  | KStr, VStr _ => True
  | KTuple ts, VTuple vs =>
    (fix go (ts : list kty) (vs : list val) : Prop :=
       match ts, vs with
       | [], [] => True
       | t :: ts', v :: vs' => has_kty t v /\ go ts' vs'
       | _, _ => False
       end) ts vs
  | KList t, VList vs => Forall (has_kty t) vs
  | _, _ => False
  end.

(** The key of a row: the key function's value, or the row itself. *)
Definition sort_key (key : option func) (x : val) : option val :=
  match key with
  | Some f => f (components x)
  | None => Some x
  end.

Definition keq (key : option func) (k : val) (x : val) : bool :=
  match sort_key key x with Some k' => py_eq k' k | None => false end.

(** [ws] cuts [l] into pieces of n, the last one padded with None. *)
Definition padded_chunks (n : nat) (l : list val) (ws : list (list val)) : Prop :=
  Forall (fun w => length w = n) ws /\
  exists p, p < n /\ concat ws = l ++ repeat VNone p /\ (l = [] -> ws = []).

Definition pred_holds (p : func) (x : val) : bool :=
  match p (components x) with Some v => truthy v | None => false end.

Definition pred_defined (p : func) (x : val) : bool :=
  match p (components x) with Some _ => true | None => false end.

(** A grouping of rows into windows: consecutive, non-empty, starting exactly where [p] holds. *)
Definition cut_at (p : val -> bool) (l : list val) (ws : list (list val)) : Prop :=
  concat ws = l /\
  Forall (fun w => w <> []) ws /\
  Forall (fun w => Forall (fun x => p x = false) (tl w)) ws /\
  Forall (fun w => match w with x :: _ => p x = true | [] => False end) (tl ws).

Definition window_of (w : list val) : val := VTuple (map unwrap_op_output w).

Definition window_at (n : nat) (ys : list val) (i : nat) : list val :=
  map (fun j => nth (i + j) ys VNone) (seq 0 n).

(** Left fold of a possibly failing function. *)
Fixpoint fold_opt (f : func) (a : val) (l : list val) : option val :=
  match l with
  | [] => Some a
  | x :: l' => match f [a; x] with
               | None => None
               | Some a' => fold_opt f a' l'
               end
  end.

Definition column (i : nat) (xs : list val) : list val := map (fun x => nth i (components x) VNone) xs.

(** [vs] holds, for each reduction i, the fold of function i over column i of [xs]. *)
Definition folds (fs : list func) (init vs : list val) (xs : list val) : Prop :=
  length vs = length fs /\
  forall i f, nth_error fs i = Some f -> fold_opt f (nth i init VNone) (column i xs) = Some (nth i vs VNone).

Definition long (n : nat) (x : val) : bool := Nat.leb n (length (components x)).

(** Errors red adds: one per tuple that is too short. *)
Definition red_short_errs (n : nat) (es : list event) : list err :=
  flat_map (fun e => match e with
                     | Data x => if long n (wrap x) then [] else [MkErr "red" (wrap x)]
                     | Err e | Fatal e => [e]
                     | Flush => []
                     end) es.

Fixpoint fold_skip (f : func) (a : val) (l : list val) : val :=
  match l with
  | [] => a
  | x :: l' => match f [a; x] with
               | None => fold_skip f a l'
               | Some a' => fold_skip f a' l'
               end
  end.

(** What column i of a group is folded with: '.' keeps the value itself. *)
Definition eff (r : reducer) : func :=
  if r_group r then (fun args => nth_error args 1) else r_fun r.

(** The group a row belongs to: the components at the '.' positions. *)
Definition group_key (rs : list reducer) (x : val) : val :=
  VTuple (map snd (filter (fun p => r_group (fst p)) (combine rs (components x)))).

Definition in_group (rs : list reducer) (k x : val) : bool := py_eq k (group_key rs x).

(** Every group's folds are defined on the whole stream. *)
Definition groups_defined (rs : list reducer) (xs : list val) : Prop :=
  forall x, In x xs -> exists vs,
    folds (map eff rs) (repeat VNone (length rs)) vs (filter (in_group rs (group_key rs x)) xs).

(** First occurrences, in order. *)
Fixpoint nub (l : list val) : list val :=
  match l with
  | [] => []
  | x :: l' => x :: filter (fun y => negb (py_eq x y)) (nub l')
  end.

(** Number of occurrences, by Python equality. *)
Definition count (x : val) (l : list val) : nat := length (filter (py_eq x) l).

(** The elements of l for which [p before x] holds, [before] being the elements that precede x. *)
Fixpoint keep_by (p : list val -> val -> bool) (before l : list val) : list val :=
  match l with
  | [] => []
  | x :: l' => if p before x then x :: keep_by p (before ++ [x]) l' else keep_by p (before ++ [x]) l'
  end.

(** The rows an argument pipeline yields, as tuples. *)
Definition arg_rows (p : source) : list val := map (fun x => VTuple (components x)) (rows (fst p)).

Definition diff_keep (right before : list val) (x : val) : bool :=
  Nat.leb (count x right) (count x before).

Definition hashable_rows (xs : list val) : Prop := Forall (fun x => hashable x = true) xs.

(** Occurrences allowed by all the pipelines: the minimum of the counts. *)
Definition min_count (x : val) (ps : list source) : nat :=
  match map (fun p => count x (arg_rows p)) ps with
  | [] => 0
  | n :: ns => fold_left Nat.min ns n
  end.

Definition int_keep (ps : list source) (before : list val) (x : val) : bool :=
  Nat.ltb (count x before) (min_count x ps).

Definition ok_arg (p : source) : Prop := snd p = Ok /\ hashable_rows (arg_rows p).

(** Right rows whose first component equals that of x. *)
Definition matches (k : val) (right : list val) : list val :=
  filter (fun m => match components m with [] => false | k' :: _ => py_eq k k' end) right.

Definition join_rows (keep : bool) (right : list val) (x : val) : list val :=
  match components x with
  | [] => []
  | k :: _ => match matches k right with
              | [] => if keep then [VTuple (components x)] else []
              | ms => map (fun m => VTuple (components x ++ tl (components m))) ms
              end
  end.

Definition joinable (x : val) : Prop := match components x with [] => False | k :: _ => hashable k = true end.

Definition joinable_or_empty (x : val) : Prop := match components x with [] => True | k :: _ => hashable k = true end.

Definition compare_value (compare : option func) (x : val) : option val :=
  match compare with Some f => f (components x) | None => Some (VTuple (components x)) end.

(** The row's compare value is computable, hashable and not None; the default compare value always is
    not None. *)
Definition filterable (compare : option func) (x : val) : Prop :=
  exists c, compare_value compare x = Some c /\ hashable (wrap c) = true /\ c <> VNone.

Definition occurs (compare : option func) (right : list val) (x : val) : bool :=
  match compare_value compare x with
  | Some c => existsb (py_eq (wrap c)) right
  | None => false
  end.

(** What a predicate says of a row; [None] when it raises. *)
Definition says (p : func) (x : val) : option bool := option_map truthy (p (components x)).

(** Branch [n] of a case gets row [x]: the predicates before the n-th are false, and the n-th is
    true, or there is none and it is the default branch. *)
Definition routed (preds : list func) (has_default : bool) (n : nat) (x : val) : bool :=
  forallb (fun p => match says p x with Some false => true | _ => false end) (firstn n preds) &&
  match nth_error preds n with
  | Some p => match says p x with Some true => true | _ => false end
  | None => has_default && Nat.eqb n (length preds)
  end.

(** Some predicate raises before one is true. *)
Definition no_route (preds : list func) (x : val) : bool :=
  existsb (fun n => forallb (fun p => match says p x with Some false => true | _ => false end) (firstn n preds) &&
                    match nth_error preds n with
                    | Some p => match says p x with None => true | _ => false end
                    | None => false
                    end) (seq 0 (length preds)).

(** Output events tagged with the pipeline they come from; [None] for Errors of case itself or from
    upstream. *)
Definition tagged := list (option nat * event).
Definition from (n : option nat) (t : tagged) : list event :=
  map snd (filter (fun p => match fst p, n with
                            | Some i, Some j => Nat.eqb i j
                            | None, None => true
                            | _, _ => false
                            end) t).

(** Errors that case passes on or produces itself. *)
Definition case_own (preds : list func) (es : list event) : list event :=
  flat_map (fun e => match e with
                     | Data x => if no_route preds (wrap x)
                                 then [Fatal (MkErr "case" (VTuple (components (wrap x))))] else []
                     | Err e | Fatal e => [Err e]
                     | Flush => []
                     end) es.

(** The rows branch n gets. *)
Definition branch_in (preds : list func) (d : bool) (n : nat) (es : list event) : list event :=
  map Data (filter (routed preds d n) (rows es)).

(** Not preceded by an equal row / by an equal row immediately before. *)
Definition first_occurrence (before : list val) (x : val) : bool := negb (existsb (py_eq x) before).

Definition new_run (before : list val) (x : val) : bool :=
  match rev before with
  | [] => true
  | y :: _ => negb (py_eq y x)
  end.

(** The elements of a value that expand can expand. *)
Definition elements (x : val) : option (list val) :=
  match x with
  | VTuple ys | VList ys | VGen _ ys | VSet ys => Some ys
  | VDict kvs => Some (map (fun kv => VTuple [fst kv; snd kv]) kvs)
  | VStruct _ kvs => Some (map (fun kv => VTuple [VStr (fst kv); snd kv]) kvs)
  | _ => None
  end.

(** A row of the same kind (tuple or list) with other components. *)
Definition like (x : val) (xs : list val) : val :=
  match x with VList _ => VList xs | _ => VTuple xs end.

Definition replace_nth (i : nat) (y : val) (xs : list val) : list val :=
  map (fun j => if Nat.eqb j i then y else nth j xs VNone) (seq 0 (length xs)).
