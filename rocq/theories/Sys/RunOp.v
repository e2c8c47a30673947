(* The operator run (marcel/op/run.py:41-82, env.py:339-342, main.py:224-232, reader.py:69-82), on top of the history of
   commands (History.v).

   Simplifications: a line is split into words at white space (C74 is about the parser), and the history does not change while
   the commands that one line leads to are executed. *)
From Coq Require Import Ascii String List Bool Arith ZArith.
From Verif.Sys Require Import Csv History.
From Verif.Syntax Require Args ArgsTable.
Import ListNotations.
Open Scope list_scope.

(* RunArgsParser, run.py:45-50: id is converted by str_to_int (argsparser.py:176-184) *)
Definition conv_id (name : text) (o : Args.obj) : option Args.obj :=
  match o with
  | Args.OStr t => option_map Args.OInt (parse_int t)
  | Args.OInt n => Some (Args.OInt n)
  | _ => None
  end.

(* Run.run, 73-74: env.next_command.  command_by_id, reader.py:69-82, says what is wrong and returns '', if id is not an
   int (None: the default) or not the number of a command.  None: ArgsError. *)
Definition next_command (args : list text) (w : world) : option text :=
  match Args.parse conv_id ArgsTable.op_run (map Args.OStr args) with
  | None => None
  | Some m => Some (match Args.dget (txt "id") m with
                    | Some (Args.OInt n) => command_by_id n w
                    | _ => []
                    end)
  end.

(* The arguments, if the line is a run command *)
Definition run_args (line : text) : option (list text) :=
  match words [] line with
  | x :: args => if text_dec x (txt "run") then Some args else None
  | [] => None
  end.

(* The commands that are executed, one after the other, when a line is entered: the loop of MainInteractive.run, which takes
   env.next_command before it reads another line (main.py:225-232; '' is a command too, which does nothing) *)
Inductive executes (w : world) : text -> list text -> Prop :=
| executes_other : forall c, run_args c = None -> executes w c [c]
| executes_refused : forall c args, run_args c = Some args -> next_command args w = None -> executes w c [c]
| executes_next : forall c args c' cs, run_args c = Some args -> next_command args w = Some c' -> executes w c' cs -> executes w c (c :: cs).

(* In a script there is no reader (env.py:276-282: only EnvironmentInteractive has one): env.reader is an AttributeError.
   None: the exception *)
Definition run_in_script (args : list text) : option unit :=
  match Args.parse conv_id ArgsTable.op_run (map Args.OStr args) with
  | None => Some tt               (* ArgsError, which is reported *)
  | Some _ => None
  end.
