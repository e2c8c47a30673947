(** What the commands of a script are, and what the arguments of a script mean. *)
From Verif.Syntax Require Export Scripts LexerSpec.
Local Open Scope char_scope.
Local Open Scope list_scope.

(** [ls] are the lines of [t]. *)
Definition lines_of (t : text) (ls : list text) : Prop :=
  ls <> [] /\ join_lines ls = t /\ forall l, In l ls -> ~ In newline l.

(** A line that continues on the next one: its text, and a backslash. *)
Definition continued (l body : text) : Prop := l = body ++ [bslash].

(** [script ls cmds]: the non-blank lines [ls] make the commands [cmds]. A command is the bodies of any
    number of continued lines, and the first line that is not continued. At the end of the script, a
    continued line may have no successor; what there is then is a command, unless it is empty. *)
Inductive script : list text -> list text -> Prop :=
| script_end : script [] []
| script_command : forall ls bodies l rest cmds,
    Forall2 continued ls bodies -> (forall b, ~ continued l b) -> script rest cmds ->
    script (ls ++ l :: rest) ((concat bodies ++ l) :: cmds)
| script_unfinished : forall ls bodies, ls <> [] ->
    Forall2 continued ls bodies -> concat bodies <> [] -> script ls [concat bodies]
| script_nothing : forall ls bodies, ls <> [] ->
    Forall2 continued ls bodies -> concat bodies = [] -> script ls [].

(** A word or two of a command line: a flag, a flag with its value, or a positional argument. *)
Inductive word (to_int : text -> option Z) (d : list (text * carg)) : list text -> option text * obj -> Prop :=
| word_bool : forall t var s l def req, In (var, CFlag s l CBool def req) d ->
    (s = Some t \/ l = Some t) -> word to_int d [t] (Some var, OTrue)
| word_string : forall t v var s l def req, In (var, CFlag s l CString def req) d ->
    (s = Some t \/ l = Some t) -> isflag v = false -> word to_int d [t; v] (Some var, OStr v)
| word_int : forall t v z var s l def req, In (var, CFlag s l CInt def req) d ->
    (s = Some t \/ l = Some t) -> isflag v = false -> to_int v = Some z -> word to_int d [t; v] (Some var, OInt z)
| word_positional : forall t, isflag t = false -> word to_int d [t] (None, OStr t).

(** The last value given to a variable. *)
Fixpoint last_given (var : text) (l : list (option text * obj)) : option obj :=
  match l with
  | [] => None
  | (who, v) :: r => match last_given var r with
                     | Some v' => Some v'
                     | None => match who with
                               | Some var' => if teqb var var' then Some v else None
                               | None => None
                               end
                     end
  end.
