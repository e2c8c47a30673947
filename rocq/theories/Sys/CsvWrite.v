(* Writing text, CSV and TSV files: marcel/op/write.py:135-165 (setup, receive), 194-268 (the writers), with the
   part of Python's csv.writer that CSVWriter uses (Modules/_csv.c: join_append and csv_writerow, for
   quotechar QUOTE, doublequote, QUOTE_NONNUMERIC and an empty lineterminator).

   Simplifications: characters have 8 bits; a file can be opened, read and written, and is
   not touched by anybody else; a component of a tuple is represented by what the writers can see of it. *)
From Coq Require Import Ascii String List Bool Arith.
From Verif.Sys Require Import Csv.
Import ListNotations.

(* A component of a tuple: a str, a number (PyNumber_Check: int, float, bool, ...) with its str(), None, any
   other object with its str(); the str() of an object may raise. *)
Inductive field := FStr (t : text) | FNumber (t : text) | FNone | FOther (t : text) | FRaises.

(* str(x); None: it raises *)
Definition str_of (f : field) : option text :=
  match f with
  | FStr t | FNumber t | FOther t => Some t
  | FNone => Some (txt "None")
  | FRaises => None
  end.

(* csv_writerow: the characters of the field (none for None), and whether it is to be quoted *)
Definition csv_chars (f : field) : option text := match f with FNone => Some [] | _ => str_of f end.
Definition csv_quoted (f : field) : bool := match f with FNumber _ => false | _ => true end.

(* join_append_data: quotes are doubled; the delimiter and quotes make it quoted. *)
Fixpoint double_quotes (t : text) : text :=
  match t with
  | [] => []
  | c :: r => if is c QUOTE then QUOTE :: c :: double_quotes r else c :: double_quotes r
  end.
Definition join_append (d : ascii) (t : text) (quoted : bool) : text :=
  if quoted || existsb (fun c => is c d || is c QUOTE) t then QUOTE :: double_quotes t ++ [QUOTE] else t.

(* csv_writerow: a delimiter before each field but the first; a record of one empty field is quoted. None: str() of
   a field raises. *)
Fixpoint csv_join (d : ascii) (first : bool) (row : list field) : option text :=
  match row with
  | [] => Some []
  | f :: row =>
      match csv_chars f, csv_join d false row with
      | Some t, Some r => Some ((if first then [] else [d]) ++ join_append d t (csv_quoted f) ++ r)
      | _, _ => None
      end
  end.
Definition csv_row (d : ascii) (row : list field) : option text :=
  match csv_join d true row with
  | Some [] => Some (match row with [] => [] | _ => [QUOTE; QUOTE] end)
  | r => r
  end.

(* DefaultWriter.receive, write.py:244-261: 1-tuples are unwrapped; [tuple_str] is str() of a tuple *)
Definition default_line (tuple_str : list field -> option text) (row : list field) : option text :=
  match row with
  | [f] => str_of f
  | _ => tuple_str row
  end.

(* print(x, file=...): write.py:209-210 *)
Definition print_line (t : text) : text := t ++ [LF].

(* Write.receive (147-155) on each tuple, with the writer's line for a tuple: what is added to the file; a
   tuple for which the writer raises adds nothing. *)
Definition added (line : list field -> option text) (rows : list (list field)) : text :=
  flat_map (fun r => match line r with Some t => print_line t | None => [] end) rows.

(* The file after write has run, write.py:212-223: opened with 'a' or 'w'. *)
Definition write_file (append : bool) (line : list field -> option text) (old : text) (rows : list (list field)) : text :=
  (if append then old else []) ++ added line rows.

Definition COMMA : ascii := ","%char.
Definition TAB : ascii := "009"%char.

(* What write can be given: a tuple, or an Error, with its str(), that an earlier operator has sent, either with
   fatal_error (core.py:141-149, which swallows what send_error raises) or with non_fatal_error (135-139, which does not). *)
Inductive item := ITuple (row : list field) | IError (fatal : bool) (t : text).

(* Write.receive and receive_error (147-160) on each of them: the text added, and whether the command was killed.
   [error_line] is what the writer makes of an Error: its str() for DefaultWriter; for CSVWriter and PythonWriter None: an
   Error is not iterable, so that writerow and format raise.
   Simplification: no operator before write catches what write raises. *)
Fixpoint receive_items (line : list field -> option text) (error_line : text -> option text) (items : list item) : text * bool :=
  match items with
  | [] => ([], false)
  | ITuple r :: items =>
      let '(t, k) := receive_items line error_line items in
      (match line r with Some l => print_line l | None => [] end ++ t, k)
  | IError fatal e :: items =>
      match error_line e with
      | Some l => let '(t, k) := receive_items line error_line items in (print_line l ++ t, k)
      | None => if fatal then receive_items line error_line items else ([], true)
      end
  end.
Definition csv_error_line (e : text) : option text := None.
Definition default_error_line (e : text) : option text := Some e.
