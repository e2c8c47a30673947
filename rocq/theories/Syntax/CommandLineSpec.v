(** What a command line made of words, expressions in parentheses and pipelines in [(| |)] does (C74): each operator is the one named by its
    first word, on the values that the others stand for, and each pipe sends what is on its left to what is on its right. *)
From Coq Require Export ZArith.
From Verif.Syntax Require Export LexerSpec.
From Verif.Ops Require SetOps Gen.
Local Open Scope char_scope.
Local Open Scope list_scope.

(** ** What is written *)
Inductive item : Type := Word (w : text) | Expr (s : text) | Nest (line : list (list item)).

(** [written l t]: [t] is a way to write the operators [l]: at least one blank between the items of an operator, pipes between the operators, and
    blanks wherever else one likes. *)
Inductive written_item : item -> text -> Prop :=
| wr_word : forall w, w <> [] -> Forall ordinary w -> written_item (Word w) w
| wr_expr : forall s, balanced s -> hd_error s <> Some "|" -> written_item (Expr s) ("(" :: s ++ [")"])
| wr_nest : forall l a t b, blank a -> blank b -> written l t -> written_item (Nest l) ("(" :: "|" :: a ++ t ++ b ++ ["|"; ")"])
with written_op : list item -> text -> Prop :=
| wr_last : forall i t, written_item i t -> written_op [i] t
| wr_more : forall i t w is u, written_item i t -> blank w -> w <> [] -> written_op is u -> written_op (i :: is) (t ++ w ++ u)
with written : list (list item) -> text -> Prop :=
| wr_one : forall o t, written_op o t -> written [o] t
| wr_pipe : forall o t a b l u, written_op o t -> blank a -> blank b -> written l u -> written (o :: l) (t ++ a ++ "|" :: b ++ u).

(** A whole line: blanks around, and perhaps a comment after at least one. *)
Definition typed (l : list (list item)) (line : text) : Prop :=
  exists a t b, blank a /\ written l t /\ blank b /\
  (line = a ++ t ++ b \/ exists comment, b <> [] /\ line = a ++ t ++ b ++ "#" :: comment).

(** ** What it stands for *)
(** Numbers in base 10 *)
Inductive numeral : text -> Z -> Prop :=
| num_digit : forall d, (d < 10)%nat -> numeral [ascii_of_nat (48 + d)] (Z.of_nat d)
| num_more : forall t n d, (d < 10)%nat -> numeral t n -> numeral (t ++ [ascii_of_nat (48 + d)]) (10 * n + Z.of_nat d).

(** The operators *)
Definition operator_names : list string :=
  ["gen"; "map"; "select"; "squish"; "head"; "tail"; "reverse"; "sort"; "unique"; "window"; "expand"; "red"; "join"; "union"; "intersect";
   "difference"; "filter"]%string.

Section Meaning.
Variable compile : text -> option Machine.func.
Variable named : text -> option Machine.func.

(** An integer without a sign, or one computed by an expression *)
Inductive is_unsigned : item -> Z -> Prop :=
| uns_numeral : forall t n, numeral t n -> is_unsigned (Word t) n
| uns_computed : forall s f n, compile s = Some f -> f [] = Some (Val.VInt n) -> is_unsigned (Expr s) n.
Inductive is_int : item -> Z -> Prop :=
| int_unsigned : forall i n, is_unsigned i n -> is_int i n
| int_negative : forall t n, numeral t n -> is_int (Word ("-" :: t)) (- n).
(** A function, written as an expression or named *)
Inductive is_fn : item -> Machine.func -> Prop :=
| fn_expr : forall s f, compile s = Some f -> is_fn (Expr s) f
| fn_named : forall w f, named w = Some f -> is_fn (Word w) f.
Inductive is_reducer : item -> Group.reducer -> Prop :=
| red_expr : forall s f, compile s = Some f -> is_reducer (Expr s) (Group.MkRed f false false)
| red_group : forall f, named (txt ".") = Some f -> is_reducer (Word (txt ".")) (Group.MkRed f true false)
| red_count : forall f, named (txt "count") = Some f -> is_reducer (Word (txt "count")) (Group.MkRed f false true)
| red_named : forall w f, w <> txt "." -> w <> txt "count" -> named w = Some f -> is_reducer (Word w) (Group.MkRed f false false).
(** An item that cannot be taken for a flag *)
Definition no_flag (i : item) : Prop := match i with Word (c :: _ :: _) => c <> "-" | _ => True end.
(** A flag, absent or present under one of its names *)
Inductive flag_at (short long : string) : bool -> list item -> Prop :=
| flag_absent : flag_at short long false []
| flag_short : flag_at short long true [Word (txt short)]
| flag_long : flag_at short long true [Word (txt long)].
Inductive valued (short long : string) : option Z -> list item -> Prop :=
| val_absent : valued short long None []
| val_short : forall i n, is_unsigned i n -> valued short long (Some n) [Word (txt short); i]
| val_long : forall i n, is_unsigned i n -> valued short long (Some n) [Word (txt long); i].
Inductive optional {A : Type} (is : item -> A -> Prop) : option A -> list item -> Prop :=
| opt_absent : optional is None []
| opt_present : forall i a, is i a -> optional is (Some a) [i].
(** filter -c: a function given as an expression *)
Inductive comparing : option Machine.func -> list item -> Prop :=
| cmp_absent : comparing None []
| cmp_short : forall s f, compile s = Some f -> comparing (Some f) [Word (txt "-c"); Expr s]
| cmp_long : forall s f, compile s = Some f -> comparing (Some f) [Word (txt "--compare"); Expr s].

Definition op_named (n : string) (is : list item) : list item := Word (txt n) :: is.

Inductive does : list item -> Machine.machine -> Prop :=
| do_mapped : forall s f, compile s = Some f -> does [Expr s] (Basic.map_op f)
| do_map : forall i f, is_fn i f -> does (op_named "map" [i]) (Basic.map_op f)
| do_select : forall i f, is_fn i f -> does (op_named "select" [i]) (Basic.select_op f)
| do_squish : forall i f, is_fn i f -> does (op_named "squish" [i]) (Basic.squish_op f)
| do_sum : forall f, named (txt "+") = Some f -> does (op_named "squish" []) (Basic.squish_op f)
| do_head : forall i n, is_int i n -> does (op_named "head" [i]) (Basic.head_op n)
| do_tail : forall i n, is_int i n -> does (op_named "tail" [i]) (Basic.tail_op n)
| do_reverse : does (op_named "reverse" []) Basic.reverse_op
| do_sort : forall is key, optional is_fn key is -> does (op_named "sort" is) (Basic.sort_op key)
| do_unique : forall is c, flag_at "-c" "--consecutive" c is ->
    does (op_named "unique" is) (if c then Basic.unique_consecutive_op else Basic.unique_op)
| do_window : forall i f, is_fn i f -> no_flag i -> does (op_named "window" [i]) (Group.window_op (Some f) None None)
| do_overlap : forall is n, valued "-o" "--overlap" (Some n) is -> does (op_named "window" is) (Group.window_op None (Some n) None)
| do_disjoint : forall is n, valued "-d" "--disjoint" (Some n) is -> does (op_named "window" is) (Group.window_op None None (Some n))
| do_expand : forall is n, optional is_int n is -> does (op_named "expand" is) (Group.expand_op n)
| do_red : forall fl inc is rs, flag_at "-i" "--incremental" inc fl -> is <> [] -> Forall no_flag is -> Forall2 is_reducer is rs ->
    does (op_named "red" (fl ++ is)) (Group.red_op inc rs)
| do_join : forall fl keep l src, flag_at "-k" "--keep" keep fl -> sends l src ->
    does (op_named "join" (fl ++ [Nest l])) (SetOps.join_op keep src)
| do_union : forall ls srcs, sends_all ls srcs -> does (op_named "union" (map Nest ls)) (SetOps.union_op srcs)
| do_intersect : forall ls srcs, sends_all ls srcs -> does (op_named "intersect" (map Nest ls)) (SetOps.intersect_op srcs)
| do_difference : forall l src, sends l src -> does (op_named "difference" [Nest l]) (SetOps.difference_op src)
| do_filter : forall fl cmp f l src, flag_at "-k" "--keep" true fl \/ fl = [] -> comparing f cmp -> sends l src ->
    does (op_named "filter" (fl ++ cmp ++ [Nest l])) (SetOps.filter_op f false src)
| do_discard : forall fl cmp f l src, flag_at "-d" "--discard" true fl -> comparing f cmp -> sends l src ->
    does (op_named "filter" (fl ++ cmp ++ [Nest l])) (SetOps.filter_op f true src)
(** gen, and what its integers are sent to *)
with sends : list (list item) -> Machine.source -> Prop :=
| send : forall pad pads count n start starts ops ms,
    valued "-p" "--pad" pad pads -> is_unsigned count n -> n <> 0%Z -> optional is_int start starts -> does_all ops ms ->
    sends (op_named "gen" (pads ++ count :: starts) :: ops)
          (Machine.exec (Machine.pipe ms) (Gen.gen_source n (match start with Some s => s | None => 0%Z end) pad))
with does_all : list (list item) -> list Machine.machine -> Prop :=
| do_none : does_all [] []
| do_more : forall o m os ms, does o m -> does_all os ms -> does_all (o :: os) (m :: ms)
with sends_all : list (list (list item)) -> list Machine.source -> Prop :=
| send_none : sends_all [] []
| send_more : forall l s ls ss, sends l s -> sends_all ls ss -> sends_all (l :: ls) (s :: ss).
End Meaning.
Scheme does_mind := Induction for does Sort Prop with sends_mind := Induction for sends Sort Prop
  with does_all_mind := Induction for does_all Sort Prop with sends_all_mind := Induction for sends_all Sort Prop.
Combined Scheme meaning_ind from does_mind, sends_mind, does_all_mind, sends_all_mind.
Scheme written_item_mind := Induction for written_item Sort Prop with written_op_mind := Induction for written_op Sort Prop
  with written_mind := Induction for written Sort Prop.
Combined Scheme layout_ind from written_item_mind, written_op_mind, written_mind.
