(* Reading text, CSV and TSV files: marcel/op/read.py:234-250 and 284-373.

   Simplifications: characters have 8 bits; fields are shorter than the limit of the csv
   module (131072 characters); a file can be opened and decoded; nothing downstream of read
   raises. *)
From Coq Require Import Ascii String List Bool Arith.
Import ListNotations.
Open Scope list_scope.

Definition text := list ascii.
Definition txt (s : string) : text := list_ascii_of_string s.

Definition LF : ascii := "010"%char.
Definition CR : ascii := "013"%char.
Definition QUOTE : ascii := "034"%char.
Definition is (c d : ascii) : bool := Ascii.eqb c d.

(* ---- what open(path, 'r') and readline do (Python library) ---- *)

(* Universal newlines: \r\n and \r are read as \n *)
Fixpoint universal (t : text) : text :=
  match t with
  | [] => []
  | c :: r =>
      if is c CR
      then LF :: match r with
                 | d :: r' => if is d LF then universal r' else universal r
                 | [] => []
                 end
      else c :: universal r
  end.

(* The lines that readline returns, with their ends, until it returns '' *)
Fixpoint readlines (t : text) : list text :=
  match t with
  | [] => []
  | c :: r =>
      if is c LF then [c] :: readlines r
      else match readlines r with
           | l :: ls => (c :: l) :: ls
           | [] => [[c]]
           end
  end.

(* line.rstrip('\r\n'), read.py:246 and 305 *)
Fixpoint lstrip_ends (t : text) : text :=
  match t with
  | c :: r => if is c CR || is c LF then lstrip_ends r else t
  | [] => []
  end.
Definition rstrip_ends (t : text) : text := rev (lstrip_ends (rev t)).

(* ---- csv.reader, for the dialect excel with the given delimiter (Python library,
   Modules/_csv.c: parse_process_char and Reader_iternext), fed with one line that has no line end ---- *)
Inductive cstate := StartField | InField | InQuoted | QuoteInQuoted.
Fixpoint csv_scan (d : ascii) (st : cstate) (field : text) (t : text) : list text :=
  match t with
  | [] =>
      (* The end of the line ends the field.  In a quoted field, the csv reader asks for
         another line; InputIterator has none (read.py:364-370), and what there is of the
         field is returned. *)
      [field]
  | c :: r =>
      match st with
      | StartField =>
          if is c QUOTE then csv_scan d InQuoted field r
          else if is c d then field :: csv_scan d StartField [] r
          else csv_scan d InField (field ++ [c]) r
      | InField =>
          if is c d then field :: csv_scan d StartField [] r
          else csv_scan d InField (field ++ [c]) r
      | InQuoted =>
          if is c QUOTE then csv_scan d QuoteInQuoted field r
          else csv_scan d InQuoted (field ++ [c]) r
      | QuoteInQuoted =>
          if is c QUOTE then csv_scan d InQuoted (field ++ [c]) r
          else if is c d then field :: csv_scan d StartField [] r
          else csv_scan d InField (field ++ [c]) r
      end
  end.
Definition csv_line (d : ascii) (t : text) : list text := csv_scan d StartField [] t.

(* self.input.set_current(line); next(self.reader): read.py:306-307 with InputIterator,
   355-373.  An empty line is not passed on: StopIteration. *)
Definition csv_next (d : ascii) (line : text) : option (list text) :=
  match line with [] => None | _ => Some (csv_line d line) end.

(* ---- headings ---- *)

Definition between (a b : nat) (c : ascii) : bool := (a <=? nat_of_ascii c) && (nat_of_ascii c <=? b).
Definition isdigit (c : ascii) : bool := between 48 57 c.
Definition isletter (c : ascii) : bool := between 65 90 c || between 97 122 c.
Definition underscore : ascii := "_"%char.

(* read.py:285 *)
Definition identifier_char (c : ascii) : bool := is c underscore || isdigit c || isletter c.

(* str.isidentifier, for 8-bit characters *)
Definition xid_start (c : ascii) : bool :=
  is c underscore || isletter c ||
  existsb (Nat.eqb (nat_of_ascii c)) [170; 181; 186] || between 192 214 c || between 216 246 c || between 248 255 c.
Definition xid_continue (c : ascii) : bool := xid_start c || isdigit c || (nat_of_ascii c =? 183).
Definition isidentifier (t : text) : bool :=
  match t with [] => false | c :: r => xid_start c && forallb xid_continue r end.

(* str.strip *)
Definition isspace (c : ascii) : bool :=
  between 9 13 c || between 28 32 c || (nat_of_ascii c =? 133) || (nat_of_ascii c =? 160).
Fixpoint lstrip (t : text) : text :=
  match t with c :: r => if isspace c then lstrip r else t | [] => [] end.
Definition strip (t : text) : text := rev (lstrip (rev (lstrip t))).

(* read.py:346-348: for i in range(len(field)) *)
Fixpoint replace_from (i : nat) (k : nat) (t : text) : text :=
  match k with
  | 0 => t
  | S k =>
      let t' := match nth_error t i with
                | Some c => if identifier_char c then t else firstn i t ++ underscore :: skipn (i + 1) t
                | None => t
                end in
      replace_from (i + 1) k t'
  end.
(* read.py:343-351 *)
Definition heading (t : text) : text :=
  let f := strip t in
  if isidentifier f then f else replace_from 0 (length f) f.
(* extract_headings, read.py:339-352 *)
Definition extract_headings (label : bool) (fields : list text) : list text :=
  (if label then [txt "LABEL"] else []) ++ map heading fields.

Fixpoint text_eqb (a b : text) : bool :=
  match a, b with
  | [], [] => true
  | c :: a, d :: b => Ascii.eqb c d && text_eqb a b
  | _, _ => false
  end.
Definition keywords : list text := map txt
  ["False"; "None"; "True"; "and"; "as"; "assert"; "async"; "await"; "break"; "class"; "continue";
   "def"; "del"; "elif"; "else"; "except"; "finally"; "for"; "from"; "global"; "if"; "import"; "in"; "is";
   "lambda"; "nonlocal"; "not"; "or"; "pass"; "raise"; "return"; "try"; "while"; "with"; "yield"]%string.
Fixpoint distinct (l : list text) : bool :=
  match l with [] => true | a :: l => negb (existsb (text_eqb a) l) && distinct l end.
(* collections.namedtuple accepts these field names (otherwise: ValueError) *)
Definition namedtuple_ok (names : list text) : bool :=
  forallb (fun n => isidentifier n && negb (existsb (text_eqb n) keywords) &&
                    match n with c :: _ => negb (is c underscore) | [] => false end) names &&
  distinct names.

(* ---- the reader ---- *)

Inductive cell := CText (t : text) | CNone | CFile (f : nat).

(* What is sent downstream *)
Inductive out :=
| Row (cells : list cell)                              (* a tuple *)
| Named (headings : list text) (cells : list cell)     (* a namedtuple *)
| Line (t : text)                                      (* a line of text (TextReader, no label) *)
| Error (line : text).                                 (* non_fatal_error *)

Record opts := mkopts {
  delim : ascii;         (* read.py:191-192 *)
  headings : bool;
  skip_headings : bool;
  label : bool           (* read.py:222 *)
}.

(* self.named_tuple and self.n_columns (set together, read.py:294-295, 312-313): kept from
   one file to the next. *)
Definition rstate := option (list text).

(* One line after the first: read.py:319-333 *)
Definition data_line (o : opts) (f : nat) (st : rstate) (line : text) (fields : list text) : list out :=
  let row := (if label o then [CFile f] else []) ++ map CText fields in
  match st with
  | None => [Row row]
  | Some names =>
      let row := row ++ repeat CNone (length names - length row) in
      if length row =? length names then [Named names row] else [Error line]
  end.

(* The loop of CSVReader.read_file, read.py:301-337 *)
Fixpoint csv_loop (o : opts) (f : nat) (first : bool) (st : rstate) (lines : list text) : list out * rstate :=
  match lines with
  | [] => ([], st)
  | line0 :: rest =>
      let line := rstrip_ends line0 in
      match csv_next (delim o) line with
      | None => ([], st)                                         (* StopIteration, 336-337 *)
      | Some fields =>
          let '(now, st') :=
            if first && (headings o || skip_headings o) then
              if headings o then
                let names := extract_headings (label o) fields in
                if namedtuple_ok names then ([], Some names) else ([Error line], st)
              else ([], st)
            else (data_line o f st line fields, st) in
          let '(later, st'') := csv_loop o f false st' rest in
          (now ++ later, st'')
      end
  end.

Definition csv_file (o : opts) (st : rstate) (fc : nat * text) : list out * rstate :=
  csv_loop o (fst fc) true st (readlines (universal (snd fc))).

(* Several files, read by the same reader (created in setup, read.py:191-195) *)
Fixpoint csv_files (o : opts) (st : rstate) (files : list (nat * text)) : list out :=
  match files with
  | [] => []
  | fc :: rest => let '(os, st') := csv_file o st fc in os ++ csv_files o st' rest
  end.
Definition read_csv (o : opts) (files : list (nat * text)) : list out := csv_files o None files.

(* TextReader.read_file, read.py:239-250 *)
Definition text_file (lab : bool) (fc : nat * text) : list out :=
  map (fun l => let l := rstrip_ends l in
                if lab then Row [CFile (fst fc); CText l] else Line l)
      (readlines (universal (snd fc))).
Definition read_text (lab : bool) (files : list (nat * text)) : list out := flat_map (text_file lab) files.
