(** How operators convert arguments that are words (C91): marcel/argsparser.py:66-71 and 174-275 with marcel/util.py:254-260. A word
    arrives as a StringLiteral: a string that still has its quotes and backslashes (stringliteral.py:21-22), whose value() is the text
    without them. The lexer is that of Lexer.v.

    Not modelled: to_float (timer), check_str_and_pipeline (sudo), function_or_pipeline (case) and check_pipeline. *)
From Verif.Syntax Require Export CommandLine.
Local Open Scope char_scope.
Local Open Scope list_scope.

(** The conversions of arguments: none given (Arg.eval_if_string_listeral, argsparser.py:70-71), check_str (203-210),
    check_str_or_file (212-221), cluster (246-256), str_to_int (176-184), function (261-279), fork_gen (230-244) *)
Inductive conversion_of : Type := Unspecified | Check_str | Check_str_or_file | Cluster | To_int | To_function | Fork_gen.

(** What an operator gets *)
Inductive given : Type := G_str (t : text) | G_int (n : Z) | G_function (w : text) | G_cluster (c : nat).

Section Conversions.
(** The functions that words name (263-272), and Environment.cluster *)
Variable named : text -> option func.
Variable cluster : text -> option nat.

(** util.py:254-260 [string_value] *)
Definition string_value (chars : text) : option text := match literal chars with Ok (t, _) => Some t | _ => None end.

(** None: ArgsError *)
Definition converted (k : conversion_of) (chars : text) : option given :=
  match k with
  | Unspecified | Check_str | Check_str_or_file => option_map G_str (string_value chars)
  | Cluster => match string_value chars with Some t => option_map G_cluster (cluster t) | None => None end
  | To_int => option_map G_int (int_of_text chars)
  | To_function => match to_function named (OStr chars) with Some (OStr w) => Some (G_function w) | _ => None end
  | Fork_gen =>
      match int_of_text chars with
      | Some n => Some (G_int n)
      | None => match cluster chars with Some c => Some (G_cluster c) | None => option_map G_str (string_value chars) end
      end
  end.

(** A line that is one word, as an argument *)
Definition argument (k : conversion_of) (line : text) : option given :=
  match tokens (fun _ => false) line with
  | Ok [tok] => match tkind tok with KString chars => converted k chars | _ => None end
  | _ => None
  end.
End Conversions.

(** The arguments of the operators that are converted in one of these ways: the files in marcel/op, add_anon, add_anon_list,
    add_flag_one_value and add_flag_optional_value *)
Definition declared : list (string * string * conversion_of) :=
  [("bash", "args", Check_str); ("cast", "types", Unspecified); ("cd", "directory", Check_str_or_file);
   ("download", "dir", Check_str_or_file); ("download", "cluster", Cluster); ("download", "filenames", Check_str_or_file);
   ("edit", "startup", Unspecified); ("edit", "command", To_int);
   ("env", "delete", Unspecified); ("env", "pattern", Unspecified); ("env", "var", Unspecified);
   ("expand", "position", To_int); ("ls", "filenames", Check_str_or_file); ("read", "filenames", Check_str_or_file);
   ("filter", "compare", Unspecified); ("fork", "forkgen", Fork_gen);
   ("gen", "pad", To_int); ("gen", "count", To_int); ("gen", "start", To_int); ("head", "n", To_int); ("help", "topic", Check_str);
   ("history", "pattern", Unspecified); ("history", "n", To_int);
   ("import", "as", Unspecified); ("import", "module", Unspecified); ("import", "symbol", Unspecified);
   ("bg", "job_id", To_int); ("fg", "job_id", To_int); ("load", "var", Unspecified); ("map", "function", To_function);
   ("ps", "user", Unspecified); ("ps", "group", Unspecified); ("ps", "pid", Unspecified); ("ps", "command", Unspecified);
   ("pushd", "directory", Check_str_or_file); ("red", "functions", To_function); ("remote", "cluster", Cluster);
   ("run", "id", To_int); ("select", "function", To_function); ("sort", "key", To_function);
   ("sql", "db", Unspecified); ("sql", "commit", To_int); ("sql", "statement", Unspecified); ("sql", "args", Unspecified);
   ("squish", "function", To_function); ("store", "var", Unspecified); ("tail", "n", To_int); ("trace", "file", Unspecified);
   ("upload", "cluster", Cluster); ("upload", "dir", Check_str_or_file); ("upload", "filenames", Check_str_or_file);
   ("window", "overlap", To_int); ("window", "disjoint", To_int); ("window", "predicate", To_function);
   ("write", "format", Unspecified); ("write", "filename", Check_str);
   ("ws", "new", Unspecified); ("ws", "open", Unspecified); ("ws", "delete", Unspecified); ("ws", "home", Unspecified);
   ("ws", "rename", Unspecified); ("ws", "copy", Unspecified); ("ws", "export", Unspecified); ("ws", "import", Unspecified);
   ("ws", "name", Unspecified)]%string.
