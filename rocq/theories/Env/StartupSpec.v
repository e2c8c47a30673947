(** What a user expects of a startup script (help configuration, prompt, startup; C71): it is a Python module that sees marcel's names,
    set_prompt sets the prompt, run_on_startup registers commands. Independent of the model. *)
From Verif Require Import Env.Startup.
Local Open Scope string_scope.
Local Open Scope list_scope.

(** One namespace, as in a Python module *)
Definition env := list (string * value).
Definition value_of (x : string) (e : env) : option value := option_map snd (List.find (fun xv => String.eqb x (fst xv)) e).

(** The names marcel defines: each has a value of its own *)
Definition builtin_names : list string :=
  ["datetime"; "now"; "Color"; "Cluster"; "Database"; "File"; "Process"; "anon"; "flag"; "boolean_flag"; "int_flag";
   "username"; "groupname"; "quote_files"; "minutes"; "hours"; "days"; "cluster"; "epoch"; "database"; "json_parse"; "json_format";
   "run_on_startup"; "set_prompt"].
Definition initial_names : list string :=
  ["MARCEL_VERSION"; "HOME"; "PWD"; "DIRS"; "USER"; "HOST"; "parse_args"; "WORKSPACE"; "pos"; "o"; "BOLD"; "ITALIC"; "COLOR_SCHEME"; "set_db_default"].
Definition at_start : env := map (fun x => (x, Builtin x)) builtin_names ++ map (fun x => (x, Initial x)) initial_names.

Record world := mkworld { w_env : env; w_prompt : option (list value); w_scripts : list value }.

Inductive arg_is (e : env) : value + string -> value -> Prop :=
  | Arg_const v : arg_is e (inl v) v
  | Arg_name x v : value_of x e = Some v -> arg_is e (inr x) v.
Inductive evaluates : world -> expr -> value -> world -> Prop :=
  | E_const w v : evaluates w (Const v) v w
  | E_name w x v : value_of x (w_env w) = Some v -> evaluates w (Name x) v w
  | E_prompt w f args l : value_of f (w_env w) = Some (Builtin "set_prompt") -> Forall2 (arg_is (w_env w)) args l ->
      evaluates w (Call f args) Nothing (mkworld (w_env w) (Some l) (w_scripts w))
  | E_startup w f a v : value_of f (w_env w) = Some (Builtin "run_on_startup") -> arg_is (w_env w) a v ->
      evaluates w (Call f [a]) Nothing (mkworld (w_env w) (w_prompt w) (w_scripts w ++ [v]))
  | E_builtin w f x args l : value_of f (w_env w) = Some (Builtin x) -> x <> "set_prompt" -> x <> "run_on_startup" ->
      Forall2 (arg_is (w_env w)) args l -> evaluates w (Call f args) (Made x l) w
  | E_function w f reads l : value_of f (w_env w) = Some (Function reads) ->
      Forall2 (fun x v => value_of x (w_env w) = Some v) reads l -> evaluates w (Call f []) (Tuple l) w.
Inductive runs : world -> script -> world -> Prop :=
  | R_end w : runs w [] w
  (* the names of marcel are already there; importing them undoes assignments to them *)
  | R_import w p w' : runs (mkworld (map (fun x => (x, Builtin x)) builtin_names ++ w_env w) (w_prompt w) (w_scripts w)) p w' ->
      runs w (Import_all :: p) w'
  | R_assign w x e v w1 p w' : evaluates w e v w1 -> runs (mkworld ((x, v) :: w_env w1) (w_prompt w1) (w_scripts w1)) p w' ->
      runs w (Assign x e :: p) w'
  | R_define w f reads p w' : runs (mkworld ((f, Function reads) :: w_env w) (w_prompt w) (w_scripts w)) p w' ->
      runs w (Define f reads :: p) w'
  | R_do w e v w1 p w' : evaluates w e v w1 -> runs w1 p w' -> runs w (Do e :: p) w'.

Definition start : world := mkworld at_start None [].
