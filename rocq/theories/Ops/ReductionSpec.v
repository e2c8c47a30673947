(** What the reduction symbols are said to compute (help of red). *)
From Coq Require Import List ZArith String Bool Arith.
From Verif.Py Require Import Val.
From Verif.Ops Require Import Spec.
Import ListNotations.
Local Open Scope string_scope.
Local Open Scope list_scope.

(** a < b is defined and true / false *)
Definition below (a b : val) : Prop := py_lt a b = Some true.
Definition not_below (a b : val) : Prop := py_lt a b = Some false.

(** [reduces s xs v]: reducing the values [xs] by the symbol [s] gives [v]. *)
Inductive reduces : string -> list val -> val -> Prop :=
| sum_of_numbers : forall zs, zs <> [] -> reduces "+" (map VInt zs) (VInt (fold_right Z.add 0%Z zs))
| sum_of_strings : forall ss, ss <> [] -> reduces "+" (map VStr ss) (VStr (String.concat "" ss))
| sum_of_lists : forall xss, xss <> [] -> reduces "+" (map VList xss) (VList (concat xss))
| sum_of_tuples : forall xss, xss <> [] -> reduces "+" (map VTuple xss) (VTuple (concat xss))
| product : forall zs, zs <> [] -> reduces "*" (map VInt zs) (VInt (fold_right Z.mul 1%Z zs))
  (** bit by bit: all have it; some has it; an odd number of them has it *)
| all_bits : forall zs z, zs <> [] ->
    (forall n, (0 <= n)%Z -> Z.testbit z n = forallb (fun y => Z.testbit y n) zs) -> reduces "&" (map VInt zs) (VInt z)
| some_bits : forall zs z, zs <> [] ->
    (forall n, (0 <= n)%Z -> Z.testbit z n = existsb (fun y => Z.testbit y n) zs) -> reduces "|" (map VInt zs) (VInt z)
| odd_bits : forall zs z, zs <> [] ->
    (forall n, (0 <= n)%Z -> Z.testbit z n = Nat.odd (length (filter (fun y => Z.testbit y n) zs))) ->
    reduces "^" (map VInt zs) (VInt z)
| all_bits_of_booleans : forall bs, bs <> [] -> reduces "&" (map VBool bs) (VBool (forallb (fun b => b) bs))
| some_bits_of_booleans : forall bs, bs <> [] -> reduces "|" (map VBool bs) (VBool (existsb (fun b => b) bs))
| odd_bits_of_booleans : forall bs, bs <> [] ->
    reduces "^" (map VBool bs) (VBool (Nat.odd (length (filter (fun b => b) bs))))
  (** x1 and x2 and ...: the first that counts as false, else the last *)
| conjunction : forall before v after, Forall (fun x => truthy x = true) before ->
    truthy v = false \/ after = [] -> reduces "and" (before ++ v :: after) v
| disjunction : forall before v after, Forall (fun x => truthy x = false) before ->
    truthy v = true \/ after = [] -> reduces "or" (before ++ v :: after) v
  (** numbers or strings: the first of the largest, the first of the smallest *)
| maximum : forall before v after, Forall (fun x => below x v) before -> Forall (fun x => not_below v x) after ->
    pairwise (before ++ v :: after) -> reduces "max" (before ++ v :: after) v
| minimum : forall before v after, Forall (fun x => below v x) before -> Forall (fun x => not_below x v) after ->
    pairwise (before ++ v :: after) -> reduces "min" (before ++ v :: after) v
| how_many : forall xs, reduces "count" xs (VInt (Z.of_nat (length xs)))
| all_of_them : forall xs, xs <> [] -> reduces "concat" xs (VList xs)
(** all are numbers, or all are strings *)
with pairwise : list val -> Prop :=
| numbers : forall zs, pairwise (map VInt zs)
| strings : forall ss, pairwise (map VStr ss).

(** ** Grouping *)


(** The group of a row: its components at the places of the dots. *)
Definition key (ss : list string) (x : val) : val :=
  VTuple (map snd (filter (fun p => String.eqb (fst p) ".") (combine ss (components x)))).

Definition same_group (ss : list string) (k : val) (xs : list val) : list val := filter (fun x => py_eq k (key ss x)) xs.

(** The row for the rows [xs] of a group: in the place of a dot the value they share, else the reduction. *)
Definition group_row (ss : list string) (xs : list val) (vs : list val) : Prop :=
  length vs = length ss /\
  forall i s, nth_error ss i = Some s ->
    if String.eqb s "." then nth i vs VNone = last (column i xs) VNone else reduces s (column i xs) (nth i vs VNone).
