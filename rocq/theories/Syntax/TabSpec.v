(** What the tab key should offer for operators and flags (C76). *)
From Verif.Syntax Require Export CommandLineSpec Args.
Local Open Scope char_scope.
Local Open Scope list_scope.

(** Where the cursor is: on the name of an operator, on a flag of the operator [op], or on another argument of it; [typed] is what has been typed
    of it, perhaps nothing. *)
Inductive place : Type :=
| AtOperator (typed : text)
| AtFlag (op typed : text)
| AtArgument (op typed : text).

Section Unfinished.
(** Whether the arguments of an operator are read as a shell does (ls, read, bash, and executables); the complete operators that can be created *)
Variable shell_args : text -> bool.
Variable valid : list item -> Prop.

(** A complete operator: an expression, or a word and its arguments, in which the nested pipelines are valid *)
Inductive whole_item : item -> Prop :=
| wh_word : forall w, whole_item (Word w)
| wh_expr : forall s, whole_item (Expr s)
| wh_nest : forall l, Forall whole_op l -> Forall valid l -> whole_item (Nest l)
with whole_op : list item -> Prop :=
| wh_bare : forall s, whole_op [Expr s]
| wh_op : forall w is, Forall whole_item is ->
    (shell_args w = true -> Forall (fun i => match i with Nest _ => False | _ => True end) is) -> whole_op (Word w :: is).

(** [unfinished line place]: complete operators and pipes; then perhaps an operator with complete arguments and a nested pipeline which has
    been opened but not closed, in which the same is to be found, at any depth; at last, what is being typed. *)
Inductive unfinished : text -> place -> Prop :=
| un_operator : forall w, Forall ordinary w -> unfinished w (AtOperator w)
| un_flag : forall n is t a w, written_op (Word n :: is) t -> whole_op (Word n :: is) -> blank a -> a <> [] -> Forall ordinary w ->
    unfinished (t ++ a ++ "-" :: w) (AtFlag n ("-" :: w))
| un_argument : forall n is t a w, written_op (Word n :: is) t -> whole_op (Word n :: is) -> blank a -> a <> [] -> Forall ordinary w ->
    hd_error w <> Some "-" -> unfinished (t ++ a ++ w) (AtArgument n w)
| un_pipe : forall o t a b u x, written_op o t -> whole_op o -> blank a -> blank b -> unfinished u x -> unfinished (t ++ a ++ "|" :: b ++ u) x
| un_nest : forall n is t a b u x, written_op (Word n :: is) t -> whole_op (Word n :: is) -> shell_args n = false -> blank a -> a <> [] ->
    blank b -> unfinished u x -> unfinished (t ++ a ++ "(" :: "|" :: b ++ u) x.
End Unfinished.

(** What appending [t] to [typed] gives: the name, and a blank *)
Definition completes (typed t name : text) : Prop := typed ++ t = name ++ [" "].
Definition begins (w name : text) : Prop := exists rest, name = w ++ rest.

(** The operators *)
Definition operator_list : list string :=
  ["args"; "assign"; "bash"; "bg"; "case"; "cast"; "cd"; "difference"; "dirs"; "download"; "edit"; "env"; "exit"; "expand"; "fg"; "filter"; "fork";
   "gen"; "head"; "help"; "history"; "import"; "intersect"; "jobs"; "join"; "load"; "ls"; "map"; "popd"; "ps"; "pushd"; "pwd"; "read"; "red";
   "remote"; "reverse"; "run"; "select"; "sort"; "sql"; "squish"; "store"; "sudo"; "tail"; "timer"; "trace"; "union"; "unique"; "upload";
   "version"; "window"; "write"; "ws"]%string.
Definition is_operator (name : text) : Prop := exists s, In s operator_list /\ name = txt s.

(** The operators that begin with what has been typed, or, if there are none, the executables that do *)
Definition operator_offered (executables : list text) (typed t : text) : Prop :=
  exists name, begins typed name /\ completes typed t name /\
    (is_operator name \/ (forall op, is_operator op -> ~ begins typed op) /\ In name executables).

(** A flag, short or long, that is declared *)
Definition flag_of (d : decl) (name : text) : Prop := exists f, In f (d_flags d) /\ (f_short f = Some name \/ f_long f = Some name).
Definition flag_offered (d : decl) (typed t : text) : Prop := exists name, begins typed name /\ completes typed t name /\ flag_of d name.
