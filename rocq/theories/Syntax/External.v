(** External commands: what is handed to bash for a line such as [grep -v 'a b' x]: Parser.create_op_executable
    (marcel/parser.py:1314-1324), opmodule.create_op (opmodule.py:88-92), bash (op/bash.py:71-74), BashArgsParser
    (77-83), ArgsParser.check_str (argsparser.py:203-210), Bash.setup (op/bash.py:103-110).

    Simplification: what a function among the arguments evaluates to is the parameter [str_of]; whether the program runs
    interactively (106-110) is left out. *)
From Verif.Syntax Require Export Lexer Parser Args ArgsTable.
Local Open Scope char_scope.
Local Open Scope list_scope.

Section External.
Variable str_of : nat -> text.     (* str() of what the n-th function returns *)
Variable function_no : token -> nat.

(** 1318-1322: strings as they were typed, the rest by value *)
Definition executable_arg (a : arg) : obj :=
  match a with
  | AToken k => if is_word k then OStr (raw k) else OOther (function_no k)
  | _ => OOther 0
  end.

(** argsparser.py:203-210 *)
Definition check_str (name : text) (o : obj) : option obj :=
  match o with OStr _ | OOther _ => Some o | _ => None end.

(** op/bash.py:103-105.  [name]: the executable, without quotes *)
Fixpoint join_blank (l : list text) : text :=
  match l with [] => [] | [x] => x | x :: l => x ++ " " :: join_blank l end.
Definition arg_text (o : obj) : text := match o with OStr s => s | OOther n => str_of n | _ => [] end.
Definition bash_command (name : text) (args : list arg) : option text :=
  match Args.parse check_str op_bash (OStr name :: map executable_arg args) with
  | Some attrs => match dget (txt "args_arg") attrs with
                  | Some (OList l) => Some (join_blank (map (fun o => strip (arg_text o)) l))
                  | _ => None
                  end
  | None => None
  end.
End External.
