(* The history of commands: marcel/reader.py:42-131, marcel/op/history.py:64-107,
   marcel/runeditor.py:42-51, and the parts of prompt_toolkit they rely on
   (history.FileHistory and Buffer.append_to_history).

   Simplifications: characters have 8 bits; the file of the history can be read and written,
   an entry is written in one piece, and nobody but marcel writes it. *)
From Coq Require Import Ascii String List Bool Arith ZArith.
From Verif.Sys Require Import Csv.
Import ListNotations.
Open Scope list_scope.

(* ---- prompt_toolkit.history.FileHistory ---- *)

Definition PLUS : ascii := "+"%char.

(* string.split('\n') *)
Fixpoint split_lf (t : text) : list text :=
  match t with
  | [] => [[]]
  | c :: r => if is c LF then [] :: split_lf r
              else match split_lf r with l :: ls => (c :: l) :: ls | [] => [[c]] end
  end.

(* store_string: what is appended to the file; time is a line such as 2024-01-01 12:00:00 *)
Definition entry (time command : text) : text :=
  LF :: txt "# " ++ time ++ [LF] ++ flat_map (fun l => PLUS :: l ++ [LF]) (split_lf command).

(* load_history_strings: lines collects the current entry (each with its LF), strings the
   entries, the oldest first. *)
Definition add (lines : list text) (strings : list text) : list text :=
  match lines with
  | [] => strings
  | _ => strings ++ [removelast (concat lines)]
  end.
Fixpoint load_lines (lines strings : list text) (ls : list text) : list text :=
  match ls with
  | [] => add lines strings
  | l :: ls =>
      match l with
      | c :: l' => if is c PLUS then load_lines (lines ++ [l']) strings ls
                   else load_lines [] (add lines strings) ls
      | [] => load_lines [] (add lines strings) ls
      end
  end.
(* for line in f: lines end with LF (the file is read as bytes: CR is an ordinary character) *)
Definition oldest_first (file : text) : list text := load_lines [] [] (readlines file).
Definition load_history_strings (file : text) : list text := rev (oldest_first file).

(* ---- the state of one marcel process, and of the file ---- *)
Record world := mkworld {
  file : text;
  loaded : list text;      (* FileHistory.get_strings(): what this process knows, oldest first *)
  cache : list text        (* Reader._command_history, newest first *)
}.
Definition begin (f : text) : world := mkworld f (oldest_first f) [].

Definition text_dec : forall a b : text, {a = b} + {a <> b} := list_eq_dec ascii_dec.

Inductive event :=
| Enter (time command : text)     (* a command is accepted at the prompt *)
| Other (time command : text)     (* another process, in the same workspace, records a command *)
| Look.                           (* Reader.history is called *)

(* Reader.history, reader.py:63-67 *)
Definition history (w : world) : list text * world :=
  let h := load_history_strings (file w) in
  let c := if length (cache w) <? length h then h else cache w in
  (c, mkworld (file w) (loaded w) c).

(* Buffer.append_to_history: not if it is empty, or the same as the previous one *)
Definition accept (time c : text) (w : world) : world :=
  match c with
  | [] => w
  | _ =>
      if match rev (loaded w) with [] => true | l :: _ => if text_dec l c then false else true end
      then mkworld (file w ++ entry time c) (loaded w ++ [c]) (cache w)
      else w
  end.
Definition step (w : world) (e : event) : world :=
  match e with
  | Enter time c => accept time c w
  | Other time c => mkworld (file w ++ entry time c) (loaded w) (cache w)
  | Look => snd (history w)
  end.
Definition steps (w : world) (es : list event) : world := fold_left step es w.

(* ---- the operator history, op/history.py:87-107 ---- *)
Fixpoint starts (p t : text) : bool :=
  match p, t with
  | [], _ => true
  | a :: p, b :: t => is a b && starts p t
  | _ :: _, [] => false
  end.
Fixpoint contains (p t : text) : bool :=
  starts p t || match t with [] => false | _ :: t => contains p t end.

(* The loop of 99-104.  i: index in history (newest first), k: number selected.  n = None: all. *)
Fixpoint select (pattern : option text) (n : option nat) (total i k : nat) (h : list text) : list (nat * text) :=
  match h with
  | [] => []
  | c :: h =>
      if match pattern with None => true | Some p => contains p c end
      then (total - 1 - i, c) ::
           (if match n with Some n => S k =? n | None => false end then []
            else select pattern n total (S i) (S k) h)
      else select pattern n total (S i) k h
  end.
(* setup refuses n < 1 (91-92): None here.  limit: None if --all is given, else the argument,
   or 20 *)
Definition history_op (pattern : option text) (limit : option nat) (w : world) : option (list (nat * text)) :=
  match limit with
  | Some 0 => None
  | _ => let h := fst (history w) in Some (rev (select pattern limit (length h) 0 0 h))
  end.

(* ---- Reader.command_by_id, reader.py:69-82: '' if there is no such command ---- *)
Definition command_by_id (id : Z) (w : world) : text :=
  let h := fst (history w) in
  if (id <? 0)%Z then []
  else if (Z.of_nat (length h) <=? id)%Z then []
  else nth (length h - 1 - Z.to_nat id) h [].

(* ---- Reader.handle_edit_and_run, reader.py:86-131 ---- *)

(* str.split() *)
Fixpoint words (acc : text) (t : text) : list text :=
  match t with
  | [] => match acc with [] => [] | _ => [acc] end
  | c :: r => if isspace c then match acc with [] => words [] r | _ => acc :: words [] r end
              else words (acc ++ [c]) r
  end.

(* int(token), for a token without white space: sign, digits, underscores between digits *)
Definition digit_value (c : ascii) : Z := Z.of_nat (nat_of_ascii c) - 48.
Fixpoint int_digits (acc : Z) (after_digit : bool) (t : text) : option Z :=
  match t with
  | [] => if after_digit then Some acc else None
  | c :: r => if isdigit c then int_digits (acc * 10 + digit_value c) true r
              else if is c underscore && after_digit then int_digits acc false r
              else None
  end.
Definition parse_int (t : text) : option Z :=
  match t with
  | c :: r => if is c PLUS then int_digits 0 false r
              else if is c "-"%char then option_map Z.opp (int_digits 0 false r)
              else int_digits 0 false t
  | [] => None
  end.

(* edit_text, runeditor.py:42-51; editor: what the user's editor does to the text.  The
   lines that readlines returns have their ends; they are joined by LF. *)
Fixpoint join_lf (ls : list text) : text :=
  match ls with
  | [] => []
  | [l] => l
  | l :: ls => l ++ LF :: join_lf ls
  end.
Definition edit_text (editor : text -> text) (t : text) : text := join_lf (readlines (universal (editor t))).

(* The replacement of the text typed by the user; None or '': the text is left as it is
   (reader.py:147-151) *)
Definition starts_with (s : string) (t : text) : bool := starts (txt s) t.
Definition handle (editor : text -> text) (typed : text) (w : world) : option text :=
  let t := strip typed in
  let last := (Z.of_nat (length (fst (history w))) - 1)%Z in
  (* selected_command(t1): t1 is a token, or the number of the last command (107) *)
  let chosen (args : list text) : option text :=
    match args with
    | [] => Some (command_by_id last w)
    | a :: _ => match parse_int a with Some id => Some (command_by_id id w) | None => None end
    end in
  if starts_with "!!" t then
    match words [] (skipn 2 t) with [] => Some (command_by_id last w) | _ => None end
  else if starts_with "!" t then
    match words [] (skipn 1 t) with _ :: _ :: _ => None | args => chosen args end
  else if starts_with "edit" t then
    let args := words [] (skipn 4 t) in
    match args with
    | a :: _ => if text_dec a (txt "-s") then None
                else if text_dec a (txt "--startup") then None
                else option_map (edit_text editor) (chosen args)
    | [] => option_map (edit_text editor) (chosen args)
    end
  else None.

(* What is executed when the user types enter: reader.py:144-152 *)
Definition executed (editor : text -> text) (typed : text) (w : world) : text :=
  match handle editor typed w with
  | None | Some [] => typed
  | Some r => r
  end.
